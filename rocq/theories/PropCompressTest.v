(** * Properties C60, C62: the whole program tests/compress_test.cpp *)
From Coq Require Import String Ascii Decimal DecimalString.
From Verif Require Import Base Spec Limits Fourier Bignum Outcome Print Compress Program ProgramSpec CompressTest SignedText.
From Verif Require Import Wp ValueProof AddSubProof BignumProof CompressProof SignedTextProof Ieee IeeeProof MulOpProof HistoryProof CompressDebugProof ProgramProof PropObject PropMul PropCompress.
Local Open Scope string_scope.

(** ** What is to be expected, in terms of the files only *)

(** without the zeros at the end *)
Definition trimmed (l : list Z) : list Z := rev (strip (rev l)).

(** the lowest n digits of v in base B, from the least significant one; for a negative v in B's complement *)
Definition expansion (B v : Z) (n : nat) : list Z := map (fun i => v / B ^ Z.of_nat i mod B)%Z (seq 0 n).

(** The text that comes back.  With an unsigned char type a last byte in 128..191 loses its highest bit; with a signed one
    the chars are the digits of a number, which is written with one byte more.  Then zero bytes at the end are dropped; of
    a text with nothing else one zero byte is left. *)
Definition restored (char_signed : bool) (text : list Z) : list Z :=
  let t := if char_signed then expansion 256 (signed_number text) (S (length text))
           else if (128 <=? last text 0)%Z && (last text 0 <? 192)%Z then (removelast text ++ [last text 0 - 128]%Z)%list
           else text in
  match trimmed t with [] => [0]%Z | s => s end.

(** the number of bits the text is turned into *)
Definition bit_count (char_signed : bool) (text : list Z) : Z :=
  match text with
  | [] => 1
  | _ => if char_signed then 8 * Z.of_nat (length text) + (if signed_number text <? 0 then 8 else 9)
         else 8 * Z.of_nat (length text) + (if last text 0 <? 128 then 9 else 0)
  end%Z.

(** the number of 16-bit digits these take *)
Definition digit_count (char_signed : bool) (text : list Z) : Z := ((bit_count char_signed text + 15) / 16)%Z.

(** numbers side by side, from the last to the first *)
Definition side_by_side (l : list Z) : string := fold_right (fun d s => s ++ show d) "" l.

Definition report (char_signed : bool) (name : string) (text : list Z) : string :=
  let v := value 256 (restored char_signed text) in
  let number := side_by_side (expansion 65536 v (Z.to_nat (digit_count char_signed text))) in
  "Compressing: " ++ bytes text ++ "." ++ endl ++
  "Original size: " ++ show (Z.of_nat (length text)) ++ endl ++
  "Compressed size: " ++ show (digit_count char_signed text) ++ endl ++
  "Compressed Num: " ++ number ++ endl ++ endl ++
  "Decompressing: " ++ name ++ "." ++ endl ++
  "Compressed Size: " ++ show (digit_count char_signed text) ++ " " ++ show (bit_count char_signed text - 16 * (digit_count char_signed text - 1)) ++ endl ++
  number ++ endl ++ endl ++
  "Decompressed Size: " ++ show (Z.of_nat (length (restored char_signed text))) ++ endl ++
  "Reference Size: " ++ show (Z.of_nat (length text)) ++ endl ++
  bytes (restored char_signed text) ++ endl ++
  side_by_side (restored char_signed text) ++ endl.

Definition contents (files : filesystem) (f : string) : list Z := match files f with Some t => t | None => [] end.
Definition complaint (files : filesystem) (f : string) : string :=
  match files f with Some _ => "" | None => "Unable to open the file " ++ f ++ " for reading." ++ endl end.
Definition all_of (g : string -> string) (l : list string) : string := fold_right (fun f s => g f ++ s) "" l.

(** the list of files at the top *)
Definition heading (names : list string) : string :=
  "Attempting to compress and decompress the following files:" ++ all_of (fun f => endl ++ tab ++ f) names ++ endl.

(** bytes; fewer than 2^25 of them to be written back *)
Definition readable (char_signed : bool) (fuel : nat) (text : list Z) : Prop :=
  Forall (fun c => 0 <= c < 256)%Z text /\ (Z.of_nat (length (restored char_signed text)) < 2 ^ 25)%Z /\
  (8 * Z.of_nat (length text) + 26 <= Z.of_nat fuel)%Z.

(** ** Proofs *)
Local Open Scope Z_scope.

Lemma expansion_digits B ds : 2 <= B -> digits_ok B ds -> expansion B (value B ds) (length ds) = ds.
Proof.
  intros HB. unfold expansion. induction ds as [|d ds IH]; intros Dd; [reflexivity|].
  inversion_clear Dd as [|? ? Hd Hds]. cbn [length seq map value]. f_equal.
  - change (B ^ Z.of_nat 0) with 1. rewrite Z.div_1_r. symmetry. apply Z.mod_unique_pos with (value B ds); lia.
  - rewrite <- seq_shift, map_map. rewrite <- (IH Hds) at 2. apply map_ext. intros i.
    rewrite Nat2Z.inj_succ, Z.pow_succ_r by lia. rewrite <- Z.div_div by (try apply Z.pow_pos_nonneg; lia).
    do 2 f_equal. symmetry. apply Z.div_unique_pos with d; lia.
Qed.

Lemma expansion_S B v n : 2 <= B -> expansion B v (S n) = v mod B :: expansion B (v / B) n.
Proof.
  intros HB. unfold expansion. cbn [seq map]. change (B ^ Z.of_nat 0) with 1. rewrite Z.div_1_r. f_equal.
  rewrite <- seq_shift, map_map. apply map_ext. intros i. rewrite Nat2Z.inj_succ, Z.pow_succ_r by lia.
  rewrite <- Z.div_div by (try apply Z.pow_pos_nonneg; lia). reflexivity.
Qed.

Lemma expansion_value B n : 2 <= B -> forall v,
  digits_ok B (expansion B v n) /\ value B (expansion B v n) = v mod B ^ Z.of_nat n /\ length (expansion B v n) = n.
Proof.
  intros HB. induction n as [|n IH]; intros v.
  - cbn. rewrite Z.mod_1_r. repeat split; auto. constructor.
  - rewrite expansion_S by lia. destruct (IH (v / B)) as (D & V & L). cbn [value length]. rewrite V, L.
    split; [constructor; [apply Z.mod_pos_bound; lia|exact D]|]. split; [|reflexivity].
    rewrite Nat2Z.inj_succ, Z.pow_succ_r by lia. rewrite Z.rem_mul_r by (try apply Z.pow_nonzero; lia). reflexivity.
Qed.

Lemma print_side_by_side x : desc x = BN_POS -> data x <> [] -> print base256 x = side_by_side (data x).
Proof.
  intros P N. unfold print. rewrite P. destruct (data x) as [|d r]; [congruence|].
  generalize (d :: r). intros l. induction l as [|a l IH]; [reflexivity|]. cbn [print_digits side_by_side fold_right].
  rewrite IH. reflexivity.
Qed.

Lemma trimmed_split l : exists k, l = (trimmed l ++ repeat 0 k)%list.
Proof.
  destruct (strip_split (rev l)) as [k E]. exists k. unfold trimmed.
  assert (forall i, rev (repeat 0 i) = repeat 0 i) as R.
  { induction i as [|i IH]; [reflexivity|]. cbn [repeat rev]. rewrite IH. symmetry. apply repeat_cons. }
  rewrite <- (rev_involutive l) at 1. rewrite E at 1. rewrite rev_app_distr, R. reflexivity.
Qed.

Lemma trimmed_value B l : value B (trimmed l) = value B l.
Proof.
  destruct (trimmed_split l) as [k E]. rewrite E at 2. rewrite value_app.
  replace (value B (repeat 0 k)) with 0; [lia|]. induction k as [|k IH]; [reflexivity|].
  cbn [repeat value]. assert (value B (repeat 0 k) = 0) as ->; [|lia]. clear. induction k; cbn [repeat value]; lia.
Qed.

Lemma trimmed_digits B l : digits_ok B l -> digits_ok B (trimmed l).
Proof. intros D. destruct (trimmed_split l) as [k E]. rewrite E in D. apply Forall_app in D. apply D. Qed.

Lemma trimmed_canonical l : canonical (trimmed l).
Proof. exact (canonical_strip base256 (rev l)). Qed.

Lemma restored_unsigned text : Forall (fun c => 0 <= c < 256) text -> text <> [] ->
  digits_ok 256 (restored false text) /\ weak_canonical (restored false text) /\ value 256 (restored false text) = kept text /\ restored false text <> [].
Proof.
  intros Ht Hn. unfold restored, kept.
  destruct (exists_last Hn) as (v & t & E). rewrite E in *. rewrite last_last, removelast_last.
  apply Forall_app in Ht. destruct Ht as [Hv Ht]. inversion_clear Ht as [|? ? Ht' _].
  set (l := if (128 <=? t) && (t <? 192) then (v ++ [t - 128])%list else (v ++ [t])%list).
  assert (digits_ok 256 l /\ value 256 l = value 256 (v ++ [t]) -
    (if (128 <=? t) && (t <? 192) then 2 ^ (8 * Z.of_nat (length (v ++ [t])) - 1) else 0)) as [Dl Vl].
  { assert (forall d, 0 <= d < 256 -> digits_ok 256 (v ++ [d])) as Dvd.
    { intros d Hd. apply Forall_app. split; auto. }
    unfold l. destruct (Z.leb_spec 128 t); destruct (Z.ltb_spec t 192); cbn [andb];
      (split; [apply Dvd; lia|]); rewrite ?value_snoc; try lia.
    rewrite app_length. cbn [length]. replace (8 * Z.of_nat (length v + 1) - 1) with (8 * Z.of_nat (length v) + 7) by lia.
    rewrite Z.pow_add_r, Z.pow_mul_r by lia. change (2 ^ 8) with 256. change (2 ^ 7) with 128. ring. }
  rewrite <- Vl. pose proof (trimmed_value 256 l) as Sv. pose proof (trimmed_canonical l) as Sc.
  pose proof (trimmed_digits 256 l Dl) as Sd.
  destruct (trimmed l) as [|a r] eqn:Es.
  - split; [repeat constructor; lia|]. split; [apply weak_canonical_0|]. split; [rewrite <- Sv; reflexivity|discriminate].
  - split; [exact Sd|]. split; [left; exact Sc|]. split; [exact Sv|discriminate].
Qed.

(** the number of the text that comes back *)
Definition kept_number (cs : bool) (text : list Z) : Z :=
  if cs then signed_number text mod 256 ^ Z.of_nat (S (length text)) else kept text.

Lemma restored_value cs text : Forall (fun c => 0 <= c < 256) text -> text <> [] ->
  digits_ok 256 (restored cs text) /\ weak_canonical (restored cs text) /\
  value 256 (restored cs text) = kept_number cs text /\ restored cs text <> [].
Proof.
  intros Ht Hn. destruct cs; [|apply restored_unsigned; auto]. unfold restored, kept_number.
  destruct (expansion_value 256 (S (length text)) ltac:(lia) (signed_number text)) as (Dl & Vl & _).
  set (l := expansion 256 (signed_number text) (S (length text))) in *.
  rewrite <- Vl. pose proof (trimmed_value 256 l) as Sv. pose proof (trimmed_canonical l) as Sc.
  pose proof (trimmed_digits 256 l Dl) as Sd.
  destruct (trimmed l) as [|a r] eqn:Es.
  - split; [repeat constructor; lia|]. split; [apply weak_canonical_0|]. split; [rewrite <- Sv; reflexivity|discriminate].
  - split; [exact Sd|]. split; [left; exact Sc|]. split; [exact Sv|discriminate].
Qed.

Lemma restored_nil cs : restored cs [] = [0].
Proof. destruct cs; reflexivity. Qed.

(** there is only one such list *)
Lemma same_digits B a b : 2 <= B -> digits_ok B a -> digits_ok B b -> weak_canonical a -> weak_canonical b ->
  a <> [] -> b <> [] -> value B a = value B b -> a = b.
Proof.
  intros HB Da Db [Ca| ->] [Cb| ->] Na Nb V; auto.
  - apply (value_inj B HB); auto.
  - pose proof (value_canonical_pos B HB a Da Ca Na). cbn [value] in V. lia.
  - pose proof (value_canonical_pos B HB b Db Cb Nb). cbn [value] in V. lia.
Qed.

(** compress on any text, the empty one included *)
Lemma compress_packed dbg cs fuel text : readable cs fuel text ->
  0 < bit_count cs text <= Z.of_nat fuel /\ value 256 (restored cs text) < 2 ^ bit_count cs text /\
  returns (compress dbg cs fuel text) (packed (bit_count cs text) (value 256 (restored cs text))).
Proof.
  intros (Ht & Hb & Hf). destruct text as [|c r] eqn:E.
  - rewrite restored_nil. cbn [bit_count length value]. split; [cbn [length] in Hf; lia|]. split; [reflexivity|]. apply compress_any.
    eapply returns_mono; [apply compress_empty|]. intros s ->.
    unfold packed. cbn [fst snd desc data length]. repeat split; auto; try lia; try discriminate. repeat constructor; lia.
  - rewrite <- E in *. assert (text <> []) as Hn by (rewrite E; discriminate).
    destruct (restored_value cs text Ht Hn) as (_ & _ & -> & _). unfold kept_number. destruct cs.
    + destruct (signed_fits text Ht) as [HT HV].
      assert (bit_count true text = signed_bits text) as -> by (rewrite E; unfold bit_count, signed_bits; destruct (_ <? _); reflexivity).
      split; [lia|]. split; [exact HV|]. apply compress_any, compress_signed_spec; auto. lia.
    + destruct (compress_spec false fuel text Ht ltac:(discriminate) Hn ltac:(lia)) as (HT & HV & R).
      assert (bit_count false text = bits text) as -> by (rewrite E; unfold bit_count, bits; destruct (_ <? _); lia).
      destruct (kept_bounds text Ht Hn) as [K _].
      split; [lia|]. split; [lia|]. apply compress_any. exact R.
Qed.

Lemma restored_good cs text : Forall (fun c => 0 <= c < 256) text ->
  digits_ok 256 (restored cs text) /\ weak_canonical (restored cs text) /\ restored cs text <> [].
Proof.
  intros Ht. destruct text as [|c r].
  - rewrite restored_nil. repeat split; try lia; try discriminate; [repeat constructor; lia|apply weak_canonical_0].
  - destruct (restored_value cs (c :: r) Ht ltac:(discriminate)) as (A & C & _ & N). auto.
Qed.

Lemma decompressed_packed dbg ct cosf sinf cs fuel text s : accurate cosf sinf -> readable cs fuel text ->
  packed (bit_count cs text) (value 256 (restored cs text)) s ->
  returns (decompressed dbg (ieee ct cosf sinf) fuel (fst s) (snd s)) (fun z => desc z = BN_POS /\ data z = restored cs text).
Proof.
  intros HA HR Hp. pose proof HR as (Ht & Hb & Hf).
  destruct (compress_packed false cs fuel text HR) as (HT & HV & _).
  destruct (restored_good cs text Ht) as (Dr & Cr & Nr).
  set (n := length (restored cs text)) in *.
  assert (1 <= n)%nat as Hn by (unfold n; destruct (restored cs text); [congruence|cbn; lia]).
  pose proof (value_bounds 256 ltac:(lia) _ Dr) as Br. fold n in Br.
  apply decompressed_any. eapply returns_mono.
  - apply (decompressed_spec (ieee ct cosf sinf) fuel n) with (T := bit_count cs text) (D := value 256 (restored cs text)); auto; try lia.
    intros out G P Hl. apply (double_ieee ct cosf sinf fuel n); auto; lia.
  - intros z ((_ & Dz & Cz) & Pz & Vz & Nz). split; [exact Pz|]. apply (same_digits 256); auto. lia.
Qed.

Lemma both_eq {A} (m : W A) t u t' u' Q : t = t' -> u = u' -> writes_both_last m t u Q -> writes_both_last m t' u' Q.
Proof. intros -> ->. auto. Qed.

Lemma both_last_ret {A} (a : A) (Q : A -> Prop) : Q a -> writes_both_last (quiet (ret a)) "" "" Q.
Proof. intros H al n. unfold quiet, ret. auto. Qed.

Lemma returns_alloc : returns alloc (fun _ => True).
Proof.
  intros al n. unfold alloc. destruct (al n) eqn:E; [split; [exact I|lia]|].
  split; [auto|]. exists n. split; [lia|exact E].
Qed.

Lemma both_alloc : writes_both (quiet alloc) "" "" (fun _ => True).
Proof. apply both_quiet, returns_alloc. Qed.

(** Text after text. *)
Lemma both_then {B} s (k : W B) t u R : writes_both_last k t u R -> writes_both_last (write s ;;;; k)%w (s ++ t)%string u R.
Proof.
  intros K. change u with ("" ++ u)%string. eapply both_last_bind_l; [apply both_last_write|]. intros _ _. exact K.
Qed.

(** A computation after which there is something to write. *)
Lemma both_compute {A B} (m : M A) (k : A -> W B) t u Q R : returns m Q -> t <> ""%string ->
  (forall a, Q a -> writes_both_last (k a) t u R) -> writes_both_last (wbind (quiet m) k) t u R.
Proof.
  intros H N K. change t with ("" ++ t)%string. change u with ("" ++ u)%string.
  eapply both_last_bind; [apply both_quiet; exact H|exact N|exact K].
Qed.

Lemma read_file_writes files f : writes_both (read_file files f) "" "" (fun d => d = files f).
Proof.
  unfold read_file. change ""%string with ("" ++ "" ++ "")%string at 1 2.
  eapply both_bind; [apply both_alloc|]. intros _ _. eapply both_bind; [apply both_alloc|]. intros _ _.
  destruct (files f) as [t|].
  - change ""%string with ("" ++ "")%string at 1 2. eapply both_bind; [apply both_alloc|]. intros _ _. apply both_of_last, both_last_ret. reflexivity.
  - apply both_of_last, both_last_ret. reflexivity.
Qed.

(** the compressed number, as it is written *)
Definition compressed_digits (cs : bool) (text : list Z) : string :=
  side_by_side (expansion 65536 (value 256 (restored cs text)) (Z.to_nat (digit_count cs text))).

Lemma compress_file_writes dbg cs fuel text : readable cs fuel text ->
  writes_both_last (compress_file dbg cs fuel text)
    ("Compressing: " ++ bytes text ++ "." ++ endl ++
     "Original size: " ++ show (Z.of_nat (length text)) ++ endl ++
     "Compressed size: " ++ show (digit_count cs text) ++ endl ++
     "Compressed Num: " ++ compressed_digits cs text ++ endl ++ endl)%string ""
    (fun c => packed (bit_count cs text) (value 256 (restored cs text)) c /\ Z.of_nat (bn_size (fst c)) = digit_count cs text /\
              Z.of_nat (snd c) = bit_count cs text - 16 * (digit_count cs text - 1) /\
              print base256 (fst c) = compressed_digits cs text).
Proof.
  intros HR. destruct (compress_packed dbg cs fuel text HR) as (HT & HV & R). unfold compress_file.
  eapply both_eq; [|reflexivity|apply both_then, both_then].
  2: { eapply both_compute with (t := (("Compressed size: " ++ show (digit_count cs text) ++ endl) ++
         ("Compressed Num: " ++ compressed_digits cs text ++ endl ++ endl) ++ "")%string) (1 := R); [discriminate|]. intros c Hc.
    pose proof Hc as (Pd & Dd & Nd & Hl & Vd & Hb).
    assert (Z.of_nat (bn_size (fst c)) = digit_count cs text) as E1.
    { unfold bn_size, digit_count. rewrite <- Hb. apply Z.div_unique_pos with (Z.of_nat (snd c) - 1); lia. }
    assert (print base256 (fst c) = compressed_digits cs text) as E3.
    { unfold compressed_digits. rewrite print_side_by_side by auto. rewrite <- E1, Nat2Z.id, <- Vd. unfold bn_size.
      rewrite expansion_digits by (auto; lia). reflexivity. }
    rewrite E1, E3. apply both_then, both_then, both_last_ret. split; [exact Hc|]. split; [exact E1|]. split; [unfold bn_size in E1; lia|exact E3]. }
  repeat rewrite <- app_assoc_s. rewrite app_nil_s. reflexivity.
Qed.

Lemma decompress_file_writes dbg ct cosf sinf cs fuel f text c : accurate cosf sinf -> readable cs fuel text ->
  packed (bit_count cs text) (value 256 (restored cs text)) c -> Z.of_nat (bn_size (fst c)) = digit_count cs text ->
  Z.of_nat (snd c) = bit_count cs text - 16 * (digit_count cs text - 1) -> print base256 (fst c) = compressed_digits cs text ->
  writes_both_last (decompress_file dbg (ieee ct cosf sinf) fuel f (fst c) (Z.of_nat (length text)) (snd c))
    ("Decompressing: " ++ f ++ "." ++ endl ++
     "Compressed Size: " ++ show (digit_count cs text) ++ " " ++ show (bit_count cs text - 16 * (digit_count cs text - 1)) ++ endl ++
     compressed_digits cs text ++ endl ++ endl ++
     "Decompressed Size: " ++ show (Z.of_nat (length (restored cs text))) ++ endl ++
     "Reference Size: " ++ show (Z.of_nat (length text)) ++ endl ++
     bytes (restored cs text) ++ endl ++
     side_by_side (restored cs text) ++ endl)%string "" (fun _ => True).
Proof.
  intros HA HR Hp E1 E2 E3. unfold decompress_file. rewrite E1, E2, E3.
  eapply both_eq; [|reflexivity|apply both_then, both_then, both_then].
  2: { eapply both_compute with (t := (("Decompressed Size: " ++ show (Z.of_nat (length (restored cs text))) ++ endl) ++
         ("Reference Size: " ++ show (Z.of_nat (length text)) ++ endl) ++
         (bytes (restored cs text) ++ endl) ++ side_by_side (restored cs text) ++ endl)%string)
         (1 := decompressed_packed dbg ct cosf sinf cs fuel text c HA HR Hp); [discriminate|]. intros z [Pz Dz].
    destruct (restored_good cs text (proj1 HR)) as (Dr & _ & Nr).
    assert (print base256 z = side_by_side (restored cs text)) as E4 by (rewrite print_side_by_side, Dz; auto; congruence).
    assert (characters z = restored cs text) as E5 by (rewrite characters_small; rewrite Dz; auto).
    rewrite E4, E5. unfold bn_size. rewrite Dz. apply both_then, both_then, both_then, both_last_write. }
  repeat rewrite <- app_assoc_s. reflexivity.
Qed.

Lemma report_nonempty cs f text : report cs f text <> ""%string.
Proof. discriminate. Qed.

Lemma one_file_writes dbg ct cosf sinf cs fuel files f : accurate cosf sinf -> readable cs fuel (contents files f) ->
  writes_both_last (one_file dbg cs (ieee ct cosf sinf) fuel files f) (report cs f (contents files f)) (complaint files f) (fun _ => True).
Proof.
  intros HA HR. unfold one_file.
  change (report cs f (contents files f)) with ("" ++ report cs f (contents files f))%string.
  change (complaint files f) with ("" ++ complaint files f)%string.
  eapply both_last_bind; [apply read_file_writes|apply report_nonempty|]. intros d ->. fold (contents files f).
  eapply both_eq; [|apply app_nil_s|].
  2: { eapply both_last_bind with (t1 := ""%string) (Q := fun _ => True).
    - unfold complaint. destruct (files f); [apply both_of_last, both_last_ret; exact I|apply both_write_err].
    - apply (report_nonempty cs f (contents files f)).
    - intros _ _. eapply both_eq with (u := ("" ++ "")%string); [|reflexivity|].
      2: { eapply both_last_bind_l; [apply compress_file_writes; exact HR|]. intros c (Hp & E1 & E2 & E3).
        apply (decompress_file_writes dbg ct cosf sinf cs fuel f (contents files f) c); auto. }
      unfold report. repeat rewrite <- app_assoc_s. reflexivity. }
  reflexivity.
Qed.

Lemma each_file_writes dbg ct cosf sinf cs fuel files names : accurate cosf sinf ->
  Forall (fun f => readable cs fuel (contents files f)) names ->
  writes_both_last (each_file dbg cs (ieee ct cosf sinf) fuel files names)
    (all_of (fun f => report cs f (contents files f)) names) (all_of (complaint files) names) (fun _ => True).
Proof.
  intros HA. induction names as [|f r IH]; intros H; cbn [each_file all_of fold_right]; [apply both_last_ret; exact I|].
  inversion_clear H as [|? ? Hf Hr].
  eapply both_last_bind_l; [apply one_file_writes; auto|]. intros _ _. apply IH. exact Hr.
Qed.

Lemma announce_writes names :
  writes_both_last (announce names) (all_of (fun f => endl ++ tab ++ f) names ++ endl)%string "" (fun _ => True).
Proof.
  induction names as [|f r IH]; cbn [announce all_of fold_right]; [apply both_last_write|].
  eapply both_eq; [|reflexivity|apply both_then; exact IH]. repeat rewrite <- app_assoc_s. reflexivity.
Qed.

Lemma treat_writes dbg ct cosf sinf cs fuel files names : accurate cosf sinf ->
  Forall (fun f => readable cs fuel (contents files f)) names ->
  writes_both_last (treat dbg cs (ieee ct cosf sinf) fuel files names)
    (heading names ++ all_of (fun f => report cs f (contents files f)) names)%string (all_of (complaint files) names) (fun s => s = 0).
Proof.
  intros HA H. unfold treat.
  eapply both_eq with (u := ("" ++ all_of (complaint files) names ++ "")%string); [|apply app_nil_s|apply both_then].
  2: { eapply both_last_bind_l; [apply announce_writes|]. intros _ _.
    eapply both_last_bind_l; [apply (each_file_writes dbg ct cosf sinf cs fuel files names HA H)|]. intros _ _. apply both_last_ret. reflexivity. }
  unfold heading. rewrite app_nil_s. repeat rewrite <- app_assoc_s. reflexivity.
Qed.

Lemma parseArgs_writes args : writes_both (parseArgs args) "" "" (fun _ => True).
Proof.
  induction args as [|a r IH]; cbn [parseArgs]; [apply both_of_last, both_last_ret; exact I|].
  change ""%string with ("" ++ "" ++ "" ++ "")%string at 1 2.
  do 3 (eapply both_bind; [apply both_alloc|]; intros _ _). exact IH.
Qed.

(** ** The program *)

(** What is left behind by a program that is to write [out] and [err]: all of it and exit status 0 -- or, if memory runs out, a
    beginning, and the end is an abnormal one. *)
Definition ends_with (m : M ended) (out err : string) : Prop :=
  forall al n, exists e n', m al n = Ret e n' /\
    (status e = Some 0 /\ std_out e = out /\ std_err e = err \/
     status e = None /\ (exists rest, rest <> ""%string /\ out = (std_out e ++ rest)%string) /\
     (exists rest, err = (std_err e ++ rest)%string) /\ refused al n n').

(** Every text written, to the character, for all files that can be read and all that cannot, in every build. *)
Theorem C60_output : forall dbg ct cosf sinf char_signed fuel files test_file args names, accurate cosf sinf ->
  (args <> [] /\ names = args \/ args = [] /\ exists f, test_file = Some f /\ names = [f]) ->
  Forall (fun f => readable char_signed fuel (contents files f)) names ->
  ends_with (compress_main dbg char_signed (ieee ct cosf sinf) fuel files test_file args)
    (heading names ++ all_of (fun f => report char_signed f (contents files f)) names)%string
    (all_of (complaint files) names).
Proof.
  intros dbg ct cosf sinf cs fuel files tf args names HA Hn H.
  assert (writes_both_last (compress_body dbg cs (ieee ct cosf sinf) fuel files tf args)
    (heading names ++ all_of (fun f => report cs f (contents files f)) names)%string (all_of (complaint files) names) (fun s => s = 0)) as R.
  { pose proof (treat_writes dbg ct cosf sinf cs fuel files names HA H) as T. unfold compress_body.
    change (all_of (complaint files) names) with ("" ++ all_of (complaint files) names)%string.
    match goal with |- writes_both_last _ ?t _ _ => change t with ("" ++ t)%string end.
    eapply both_last_bind; [apply parseArgs_writes|discriminate|]. intros _ _.
    destruct Hn as [[Hn ->]|(-> & f & -> & ->)]; [destruct args as [|a r]; [congruence|exact T]|].
    do 2 (eapply both_compute; [exact returns_alloc|discriminate|]; intros _ _). exact T. }
  intros al n. specialize (R al n). unfold compress_main.
  destruct (compress_body dbg cs (ieee ct cosf sinf) fuel files tf args al n) as [[o e] [s n'|x n'|u|]]; try contradiction.
  - destruct R as (-> & -> & -> & _). do 2 eexists. split; [reflexivity|]. left. auto.
  - destruct R as (A & C & _ & D). do 2 eexists. split; [reflexivity|]. right. cbn [status std_out std_err]. auto.
Qed.
Print Assumptions C60_output.

(** So when memory does not run out, all of it is written and the exit status is 0. *)
Lemma ends_run m out err : ends_with m out err -> exists n, run m = Ret (mkEnded (Some 0) out err) n.
Proof.
  intros H. destruct (H never_fails 0%nat) as ([s o r] & n & E & [(S & O & R)|(_ & _ & _ & (i & _ & X))]); [|discriminate].
  cbn [status std_out std_err] in *. exists n. unfold run. rewrite E. congruence.
Qed.

(** Without an argument and without BN_TEST_FILE it fails, and says so. *)
Theorem C60_no_file : forall dbg P char_signed fuel files al n,
  compress_main dbg char_signed P fuel files None [] al n =
  Ret (mkEnded (Some (-1)) "" ("No sample file provided to the compression test." ++ endl)%string) n.
Proof. intros. reflexivity. Qed.
Print Assumptions C60_no_file.

(** A file that cannot be opened is reported, and then treated as an empty one: the exit status does not tell. *)
Theorem C60_unreadable : forall dbg ct cosf sinf char_signed fuel files test_file f, accurate cosf sinf ->
  26 <= Z.of_nat fuel -> files f = None ->
  ends_with (compress_main dbg char_signed (ieee ct cosf sinf) fuel files test_file [f])
    (heading [f] ++ report char_signed f [])%string ("Unable to open the file " ++ f ++ " for reading." ++ endl)%string.
Proof.
  intros dbg ct cosf sinf cs fuel files tf f HA Hf Hx.
  pose proof (C60_output dbg ct cosf sinf cs fuel files tf [f] [f] HA) as K.
  cbn [all_of fold_right] in K. unfold contents, complaint in K. rewrite Hx, !app_nil_s in K. apply K.
  - left. split; [discriminate|reflexivity].
  - constructor; [|constructor]. rewrite Hx. unfold readable. rewrite restored_nil. cbn [length]. repeat split; auto; lia.
Qed.
Print Assumptions C60_unreadable.

(** With an unsigned char type the text is restored exactly if its last byte is neither 0 nor in 128..191. *)
Theorem C60_restored_iff : forall text, Forall (fun c => 0 <= c < 256) text ->
  (restored false text = text <-> text <> [] /\ (0 < last text 0 < 128 \/ 192 <= last text 0) \/ text = [0]).
Proof.
  intros text Ht. destruct text as [|c r] eqn:E.
  { split; [discriminate|intros [[H _]|H]; [congruence|discriminate]]. }
  rewrite <- E in *. assert (text <> []) as Hn by (rewrite E; discriminate). clear E.
  destruct (restored_value false text Ht Hn) as (Dr & Cr & Vr & Nr). pose proof (kept_bounds text Ht Hn) as [Kb _].
  unfold kept_number, kept in *. destruct (exists_last Hn) as (v & t & E).
  assert (last text 0 = t) as El by (rewrite E; apply last_last). rewrite El in *.
  assert (0 <= t < 256) as Hb by (rewrite E in Ht; apply Forall_app in Ht; destruct Ht as [_ Ht]; inversion Ht; assumption).
  split.
  - intros Er. rewrite Er in *.
    assert (0 < 2 ^ (8 * Z.of_nat (length text) - 1)) by (apply Z.pow_pos_nonneg; [lia|destruct text; [congruence|cbn; lia]]).
    destruct (Z.leb_spec 128 t); destruct (Z.ltb_spec t 192); cbn [andb] in Vr; try lia.
    + left. split; [exact Hn|lia].
    + destruct Cr as [Cr|Cr]; [|right; exact Cr]. left. split; [exact Hn|].
      unfold canonical in Cr. rewrite E, last_last in Cr. lia.
  - intros H. assert (text = [0] \/ 0 < t) as H' by (destruct H as [[_ H]|H]; [right; lia|left; exact H]).
    apply (same_digits 256); auto; try lia.
    + destruct H' as [->|H']; [apply weak_canonical_0|]. left. rewrite E. apply canonical_snoc. lia.
    + rewrite Vr. destruct (Z.leb_spec 128 t); destruct (Z.ltb_spec t 192); cbn [andb]; try lia.
      destruct H as [[_ H]|H]; [lia|]. subst text. destruct v as [|? [|? ?]]; try discriminate. inversion H. lia.
Qed.
Print Assumptions C60_restored_iff.

(** With a signed one exactly if all bytes are below 128 and the last one is not 0. *)
Theorem C60_restored_signed_iff : forall text, Forall (fun c => 0 <= c < 256) text ->
  (restored true text = text <-> Forall (fun c => c < 128) text /\ (text <> [] /\ last text 0 <> 0 \/ text = [0])).
Proof.
  intros text Ht. destruct text as [|c r] eqn:E.
  { split; [discriminate|intros [_ [[H _]|H]]; [congruence|discriminate]]. }
  rewrite <- E in *. assert (text <> []) as Hn by (rewrite E; discriminate). clear E.
  destruct (restored_value true text Ht Hn) as (Dr & Cr & Vr & Nr). unfold kept_number in Vr.
  destruct (exists_last Hn) as (v & t & E).
  assert (last text 0 = t) as El by (rewrite E; apply last_last). rewrite El in *.
  assert (0 <= t < 256) as Hb by (rewrite E in Ht; apply Forall_app in Ht; destruct Ht as [_ Ht]; inversion Ht; assumption).
  split.
  - intros Er. rewrite Er in *. split.
    + destruct (Forall_Exists_dec (fun c => c < 128) (fun c => Z_lt_dec c 128) text) as [F|X]; [exact F|]. exfalso.
      apply (signed_differs text); [|exact Vr]. eapply Exists_impl; [|exact X]. cbv beta. intros a. lia.
    + destruct Cr as [Cr|Cr]; [|right; exact Cr]. left. split; [exact Hn|].
      unfold canonical in Cr. rewrite E, last_last in Cr. lia.
  - intros [F H]. apply (same_digits 256); auto; try lia.
    + destruct H as [[_ H]|H]; [left; rewrite E; apply canonical_snoc; lia|right; exact H].
    + rewrite Vr, (high_zero text F). apply Z.mod_small. pose proof (value_bounds 256 ltac:(lia) text Ht).
      rewrite pow_S. lia.
Qed.
Print Assumptions C60_restored_signed_iff.

(** The compressed number is never shorter than the text: its 16-bit digits take at least as many bytes; in ASCII text, at
    least two more. *)
Theorem C60_never_smaller : forall char_signed text, Forall (fun c => 0 <= c < 256) text ->
  Z.of_nat (length text) <= 2 * digit_count char_signed text /\
  (text <> [] -> Forall (fun c => c < 128) text -> Z.of_nat (length text) + 2 <= 2 * digit_count char_signed text).
Proof.
  intros cs text Ht. unfold digit_count.
  pose proof (Z.div_mod (bit_count cs text + 15) 16 ltac:(lia)) as K.
  pose proof (Z.mod_pos_bound (bit_count cs text + 15) 16 ltac:(lia)).
  assert (text <> [] -> 8 * Z.of_nat (length text) <= bit_count cs text) as Hlo.
  { unfold bit_count. destruct text as [|c r]; [congruence|]. intros _. destruct cs; destruct (_ <? _); lia. }
  assert (text <> [] -> Forall (fun c => c < 128) text -> 8 * Z.of_nat (length text) + 9 <= bit_count cs text) as Hhi.
  { unfold bit_count. destruct text as [|c r] eqn:E; [congruence|]. rewrite <- E in *. intros Hn F. destruct cs.
    - rewrite (high_zero text F). pose proof (value_bounds 256 ltac:(lia) text Ht). rewrite (proj2 (Z.ltb_ge _ _)) by lia. lia.
    - destruct (exists_last Hn) as (v & t & Ev). rewrite Ev in F |- *. rewrite last_last. apply Forall_app in F.
      destruct F as [_ F]. inversion F; subst. rewrite (proj2 (Z.ltb_lt _ _)) by lia. lia. }
  destruct text as [|c r] eqn:E; [cbn in *; split; [lia|congruence]|]. rewrite <- E in *.
  assert (text <> []) as Hn by (rewrite E; discriminate). specialize (Hlo Hn). specialize (Hhi Hn). split; [lia|].
  intros _ F. specialize (Hhi F). lia.
Qed.
Print Assumptions C60_never_smaller.

(** The shipped sample tests/test_file.cpp, 202 bytes: compressed into 102 digits of 16 bits and restored. *)
Definition test_file_cpp : list Z :=
  [10; 47; 42; 10; 32; 42; 32; 83; 97; 109; 112; 108; 101; 32; 102; 105; 108; 101; 32; 116; 111; 32; 116; 101; 115; 116;
   32; 102; 111; 114; 32; 117; 115; 101; 32; 97; 115; 32; 97; 32; 98; 105; 103; 110; 117; 109; 46; 10; 32; 42; 47; 10;
   10; 35; 105; 110; 99; 108; 117; 100; 101; 32; 60; 105; 111; 115; 116; 114; 101; 97; 109; 62; 10; 10; 105; 110; 116;
   32; 102; 111; 111; 40; 41; 10; 123; 10; 32; 32; 32; 32; 115; 116; 100; 58; 58; 99; 111; 117; 116; 32; 60; 60; 32; 34;
   66; 97; 114; 34; 32; 60; 60; 32; 115; 116; 100; 58; 58; 101; 110; 100; 108; 59; 10; 125; 10; 10; 105; 110; 116; 32;
   109; 97; 105; 110; 40; 41; 10; 123; 10; 32; 32; 32; 32; 115; 116; 100; 58; 58; 99; 111; 117; 116; 32; 60; 60; 32; 34;
   72; 101; 108; 108; 111; 32; 87; 111; 114; 108; 100; 33; 34; 32; 60; 60; 32; 115; 116; 100; 58; 58; 101; 110; 100; 108;
   59; 10; 10; 32; 32; 32; 32; 114; 101; 116; 117; 114; 110; 32; 48; 59; 10; 125; 10].
Example C60_sample : forall char_signed, readable char_signed 1700 test_file_cpp /\ length test_file_cpp = 202%nat /\
  restored char_signed test_file_cpp = test_file_cpp /\ digit_count char_signed test_file_cpp = 102.
Proof.
  assert (forall l, forallb (fun c => (0 <=? c) && (c <? 128)) l = true -> Forall (fun c => 0 <= c < 256) l) as K.
  { intros l H. rewrite forallb_forall in H. apply Forall_forall; intros c Hc; specialize (H c Hc); lia. }
  intros cs. split; [|destruct cs; (split; [|split]); vm_compute; reflexivity].
  split; [apply K; vm_compute; reflexivity|]. destruct cs; vm_compute; split; (reflexivity || discriminate).
Qed.

(** A file a.txt containing "Hi", and a file that is not there. *)
Definition some_files : filesystem := fun f => if String.eqb f "a.txt" then Some [72; 105] else None.
Example C60_hi : exists e n,
  run (compress_main true true (ieee unfused libm_cos libm_sin) 60 some_files None ["a.txt"; "b.txt"]%string) = Ret e n /\
  status e = Some 0 /\
  std_err e = ("Unable to open the file b.txt for reading." ++ endl)%string /\
  std_out e = ("Attempting to compress and decompress the following files:" ++ endl ++ tab ++ "a.txt" ++ endl ++ tab ++ "b.txt" ++ endl ++
    "Compressing: Hi." ++ endl ++ "Original size: 2" ++ endl ++ "Compressed size: 2" ++ endl ++
    "Compressed Num: 026952" ++ endl ++ endl ++
    "Decompressing: a.txt." ++ endl ++ "Compressed Size: 2 9" ++ endl ++ "026952" ++ endl ++ endl ++
    "Decompressed Size: 2" ++ endl ++ "Reference Size: 2" ++ endl ++ "Hi" ++ endl ++ "10572" ++ endl ++
    "Compressing: ." ++ endl ++ "Original size: 0" ++ endl ++ "Compressed size: 1" ++ endl ++
    "Compressed Num: 0" ++ endl ++ endl ++
    "Decompressing: b.txt." ++ endl ++ "Compressed Size: 1 1" ++ endl ++ "0" ++ endl ++ endl ++
    "Decompressed Size: 1" ++ endl ++ "Reference Size: 0" ++ endl ++ bytes [0] ++ endl ++ "0" ++ endl)%string.
Proof.
  destruct (ends_run _ _ _ (C60_output true unfused libm_cos libm_sin true 60 some_files None ["a.txt"; "b.txt"]%string ["a.txt"; "b.txt"]%string
    libm_accurate ltac:(left; split; [discriminate|reflexivity])
    ltac:(repeat constructor; cbn; lia))) as (n & E).
  do 2 eexists. split; [exact E|]. cbn [status std_out std_err]. split; [reflexivity|]. split; vm_compute; reflexivity.
Qed.

(** What is lost: "H" 200 160 comes back as "H" 200 32, or with a signed char type as "H" 200 159 255. *)
Example C60_lost : restored false [72; 200; 160] = [72; 200; 32] /\ restored true [72; 200; 160] = [72; 200; 159; 255] /\
  readable true 60 [72; 200; 160] /\
  restored false [7; 128] = [7] /\ restored false [7; 0; 0] = [7] /\ restored true [7; 0; 0] = [7] /\ restored false [0; 0] = [0].
Proof.
  repeat split; try (vm_compute; reflexivity); try (repeat constructor; lia). vm_compute. discriminate.
Qed.

(** ** How numbers and bytes are written *)

(** The names used above for pieces of text stand for what they say: a number is its decimal numeral, bytes are the
    characters with those codes, the two blanks are a line feed and a tabulator. *)
From Verif Require PropPrint PropIntStream.
Theorem C60_notation :
  (forall z, (0 <= z)%Z -> PropPrint.numeral 10 (show z) z) /\
  (forall l, Forall (fun c => 0 <= c < 256)%Z l -> PropPrint.codes (bytes l) = l) /\
  PropPrint.codes endl = [10]%Z /\ PropPrint.codes tab = [9]%Z.
Proof.
  split; [exact (fun z => PropIntStream.written_numeral 16 z ltac:(discriminate))|]. split; [|split; reflexivity].
  induction l as [|c l IH]; intros H; [reflexivity|]. inversion H as [|? ? Hc Hl]; subst. cbn [bytes PropPrint.codes]. rewrite IH by exact Hl. f_equal.
  rewrite <- (N2Z.id (Z.to_N c)) at 1. rewrite <- N_nat_Z. unfold nat_of_ascii. rewrite N_nat_Z, N_ascii_embedding by lia. lia.
Qed.
Print Assumptions C60_notation.
