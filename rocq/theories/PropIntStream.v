(** * Property C58: numbers read from and written to streams *)
From Coq Require Import ZArith Lia List String Ascii Decimal DecimalString DecimalN DecimalFacts.
From Verif Require Import Base Spec Limits BNInt IntStream PropPrint.
Import ListNotations.
Open Scope Z_scope.

(** blanks: space, tab, line feed, vertical tab, form feed, carriage return *)
Definition blank_code (c : Z) : Prop := c = 32 \/ 9 <= c <= 13.
Definition blank (s : string) : Prop := Forall blank_code (codes s).
(** a text that does not go on with a digit *)
Definition no_digit_next (s : string) : Prop := forall c, hd_error (codes s) = Some c -> ~ 48 <= c <= 57.

Lemma code_codes c : code c = Z.of_nat (nat_of_ascii c).
Proof. unfold code, nat_of_ascii. lia. Qed.

Lemma is_space_iff c : is_space c = true <-> blank_code (code c).
Proof. unfold is_space, blank_code. rewrite orb_true_iff, andb_true_iff, Z.eqb_eq, !Z.leb_le. tauto. Qed.

Lemma is_digit_iff c : is_digit c = true <-> 48 <= code c <= 57.
Proof. unfold is_digit. rewrite andb_true_iff, !Z.leb_le. tauto. Qed.

Lemma skip_blank p t : blank p -> skip_spaces (p ++ t) = skip_spaces t.
Proof.
  unfold blank. induction p as [|c p IH]; cbn [append codes skip_spaces]; intros H; [reflexivity|].
  inversion H as [|? ? Hc Hp]; subst. rewrite <- code_codes in Hc. rewrite (proj2 (is_space_iff c) Hc). auto.
Qed.

Lemma skip_nonblank c t : ~ blank_code (code c) -> skip_spaces (String c t) = String c t.
Proof. intros H. cbn [skip_spaces]. destruct (is_space c) eqn:E; [apply is_space_iff in E; tauto|reflexivity]. Qed.

Lemma take_digits_app s t : Forall (fun c => 48 <= c <= 57) (codes s) -> no_digit_next t -> forall acc,
  take_digits (s ++ t) acc = (fold_left (fun acc c => acc * 10 + (c - 48)) (codes s) acc, t).
Proof.
  intros H Ht. induction s as [|c s IH]; intros acc; cbn [append codes fold_left].
  - destruct t as [|c t]; cbn [take_digits]; [reflexivity|]. destruct (is_digit c) eqn:E; [|reflexivity].
    apply is_digit_iff in E. rewrite code_codes in E. exfalso. exact (Ht _ eq_refl E).
  - inversion H as [|? ? Hc Hs]; subst. rewrite <- code_codes in *. cbn [take_digits]. rewrite (proj2 (is_digit_iff c) Hc), IH by auto.
    reflexivity.
Qed.

Lemma numeral_digits s z : numeral 10 s z -> Forall (fun c => 48 <= c <= 57) (codes s) /\ exists c r, s = String c r /\ 48 <= code c <= 57.
Proof.
  intros (Hn & Hf & _). assert (Forall (fun c => 48 <= c <= 57) (codes s)) as F by (eapply Forall_impl; [|exact Hf]; cbn; intros; lia).
  split; [exact F|]. destruct s as [|c r]; [cbn in Hn; congruence|]. exists c, r. split; [reflexivity|].
  cbn [codes] in F. inversion F; subst. rewrite code_codes. assumption.
Qed.

Lemma numeral_nonneg s z : numeral 10 s z -> 0 <= z.
Proof.
  intros (_ & Hf & _ & E). assert (forall l acc, 0 <= acc -> Forall (fun c => 48 <= c < 48 + 10) l -> 0 <= fold_left (fun acc c => acc * 10 + (c - 48)) l acc) as K.
  { induction l as [|c l IH]; cbn [fold_left]; intros acc Ha H; auto. inversion H; subst. apply IH; auto. lia. }
  rewrite <- E. apply K; auto. lia.
Qed.

(** ** Reading a numeral *)

Lemma sentry_numeral p c r : blank p -> 48 <= code c <= 57 \/ code c = 45 \/ code c = 43 ->
  sentry (opened (p ++ String c r)) = (mkIn (String c r) true false, true).
Proof.
  intros Hp Hc. unfold sentry, opened. cbn [fine ended text andb negb]. rewrite skip_blank by auto.
  rewrite skip_nonblank; [reflexivity|]. unfold blank_code. lia.
Qed.

Theorem C58_reads_numerals : forall W p sign s z t num, 8 < W -> blank p -> In sign [""; "+"; "-"]%string -> numeral 10 s z -> no_digit_next t ->
  bni_read W (opened (p ++ sign ++ s ++ t)) num =
  if 2 ^ W <=? z then (mkIn t false (at_end t), 2 ^ W - 1)
  else (mkIn t true (at_end t), if String.eqb sign "-" then (- z) mod 2 ^ W else z).
Proof.
  intros W p sign s z t num HW Hp Hsign Hs Ht. destruct (numeral_digits s z Hs) as (F & c & r & E & Hc).
  pose proof (take_digits_app s t F Ht 0) as T. destruct Hs as (_ & _ & _ & Hz). rewrite Hz in T.
  assert (is_digit c = true) as Dc by (apply is_digit_iff; exact Hc).
  unfold bni_read. cbn [In] in Hsign. destruct Hsign as [<-|[<-|[<-|[]]]].
  - subst s. cbn [append]. rewrite sentry_numeral by auto. cbn [negb text]. rewrite (proj2 (Z.eqb_neq W 8)) by lia.
    unfold get_unsigned. rewrite (proj2 (Z.eqb_neq (code c) 45)), (proj2 (Z.eqb_neq (code c) 43)) by lia.
    cbn [append] in T. rewrite T, Dc. cbn [negb]. reflexivity.
  - cbn [append]. rewrite sentry_numeral by (auto; right; right; reflexivity). cbn [negb text]. rewrite (proj2 (Z.eqb_neq W 8)) by lia.
    unfold get_unsigned. change (code "+" =? 45) with false. change (code "+" =? 43) with true. cbv iota beta.
    rewrite T. subst s. cbn [append]. rewrite Dc. cbn [negb]. reflexivity.
  - cbn [append]. rewrite sentry_numeral by (auto; right; left; reflexivity). cbn [negb text]. rewrite (proj2 (Z.eqb_neq W 8)) by lia.
    unfold get_unsigned. change (code "-" =? 45) with true. cbv iota beta.
    rewrite T. subst s. cbn [append]. rewrite Dc. cbn [negb]. reflexivity.
Qed.
Print Assumptions C58_reads_numerals.

(** ** Texts without a numeral *)
(** After blanks and perhaps a sign something other than a digit follows: the stream fails and the variable becomes 0; a text of blanks
    fails and leaves it.  Together with C58_reads_numerals these are all texts. *)
Theorem C58_no_numeral : forall W p sign t num, 8 < W -> blank p -> In sign [""; "+"; "-"]%string -> no_digit_next t ->
  (sign = EmptyString -> forall c, hd_error (codes t) = Some c -> ~ blank_code c /\ c <> 43 /\ c <> 45) ->
  bni_read W (opened (p ++ sign ++ t)) num =
  if String.eqb (sign ++ t) "" then (mkIn "" false true, num) else (mkIn t false (at_end t), 0).
Proof.
  intros W p sign t num HW Hp Hsign Ht Hc. unfold bni_read.
  assert (take_digits t 0 = (0, t)) as T.
  { destruct t as [|c t]; [reflexivity|]. cbn [take_digits]. destruct (is_digit c) eqn:D; [|reflexivity].
    apply is_digit_iff in D. rewrite code_codes in D. exfalso. exact (Ht _ eq_refl D). }
  assert (match t with String c _ => is_digit c | EmptyString => false end = false) as S.
  { destruct t as [|c t]; [reflexivity|]. destruct (is_digit c) eqn:D; [|reflexivity].
    apply is_digit_iff in D. rewrite code_codes in D. exfalso. exact (Ht _ eq_refl D). }
  cbn [In] in Hsign. destruct Hsign as [<-|[<-|[<-|[]]]].
  - cbn [append]. destruct t as [|c t].
    + unfold sentry, opened. cbn [fine ended text andb negb]. rewrite skip_blank by auto. reflexivity.
    + destruct (Hc eq_refl _ eq_refl) as (C1 & C2 & C3). rewrite <- code_codes in C1, C2, C3.
      unfold sentry, opened. cbn [fine ended text andb negb]. rewrite skip_blank by auto. rewrite skip_nonblank by auto.
      cbn [negb text]. rewrite (proj2 (Z.eqb_neq W 8)) by lia.
      unfold get_unsigned. rewrite (proj2 (Z.eqb_neq (code c) 45)), (proj2 (Z.eqb_neq (code c) 43)) by lia. rewrite T, S. reflexivity.
  - cbn [append]. rewrite sentry_numeral by (auto; right; right; reflexivity). cbn [negb text]. rewrite (proj2 (Z.eqb_neq W 8)) by lia.
    unfold get_unsigned. change (code "+" =? 45) with false. change (code "+" =? 43) with true. cbv iota beta. rewrite T, S. reflexivity.
  - cbn [append]. rewrite sentry_numeral by (auto; right; left; reflexivity). cbn [negb text]. rewrite (proj2 (Z.eqb_neq W 8)) by lia.
    unfold get_unsigned. change (code "-" =? 45) with true. cbv iota beta. rewrite T, S. reflexivity.
Qed.
Print Assumptions C58_no_numeral.

(** ** Writing is a numeral *)

Lemma codes_uint_acc d : forall acc, fold_left (fun acc c => acc * 10 + (c - 48)) (codes (NilEmpty.string_of_uint d)) (Z.pos acc) = Z.pos (Pos.of_uint_acc d acc).
Proof.
  induction d; intros acc; cbn [NilEmpty.string_of_uint codes fold_left Pos.of_uint_acc]; [reflexivity|..]; rewrite <- IHd; f_equal;
  match goal with |- context [Z.of_nat (nat_of_ascii ?c)] =>
    let v := eval vm_compute in (Z.of_nat (nat_of_ascii c)) in change (Z.of_nat (nat_of_ascii c)) with v end; lia.
Qed.

Lemma codes_uint d : fold_left (fun acc c => acc * 10 + (c - 48)) (codes (NilEmpty.string_of_uint d)) 0 = Z.of_N (Pos.of_uint d).
Proof.
  induction d; cbn [NilEmpty.string_of_uint codes fold_left Pos.of_uint Z.of_N]; [reflexivity|..]; [exact IHd|..]; rewrite <- codes_uint_acc; reflexivity.
Qed.

Lemma codes_uint_digits d : Forall (fun c => 48 <= c < 48 + 10) (codes (NilEmpty.string_of_uint d)).
Proof. induction d; cbn [NilEmpty.string_of_uint codes]; constructor; auto; cbn; lia. Qed.

Lemma nzhead_D0 d l : nzhead d <> D0 l.
Proof. induction d; cbn [nzhead]; try discriminate. exact IHd. Qed.

Lemma written_numeral W num : W <> 8 -> 0 <= num -> numeral 10 (bni_write W num) num.
Proof.
  intros HW Hn. unfold bni_write. rewrite (proj2 (Z.eqb_neq W 8) HW).
  remember (N.to_uint (Z.to_N num)) as d eqn:Ed.
  assert (d = unorm d) as U by (rewrite <- DecimalN.Unsigned.to_of, Ed, DecimalN.Unsigned.of_to; reflexivity).
  assert (Z.of_N (Pos.of_uint d) = num) as V.
  { change (Pos.of_uint d) with (N.of_uint d). rewrite Ed, DecimalN.Unsigned.of_to. lia. }
  assert (d <> Nil) as Nd.
  { intros ->. unfold unorm in U. cbn in U. discriminate. }
  assert (NilZero.string_of_uint d = NilEmpty.string_of_uint d) as -> by (destruct d; [congruence|reflexivity..]).
  split; [destruct d; [congruence|discriminate..]|]. split; [apply codes_uint_digits|]. split; [|rewrite codes_uint; exact V].
  destruct d; try congruence; cbn [NilEmpty.string_of_uint codes hd]; intros H0; try (exfalso; cbn in H0; lia).
  unfold unorm in U. destruct (nzhead (D0 d)) eqn:E; try discriminate.
  - injection U as ->. reflexivity.
  - exfalso. exact (nzhead_D0 _ _ E).
Qed.

(** What << writes is the decimal numeral of the number (16, 32 and 64 bits). *)
Theorem C58_writes_numerals : forall W num, 8 < W -> 0 <= num -> numeral 10 (bni_write W num) num.
Proof. intros W num HW. apply written_numeral. lia. Qed.
Print Assumptions C58_writes_numerals.

Lemma string_app_assoc (a b c : string) : ((a ++ b) ++ c = a ++ b ++ c)%string.
Proof. induction a; cbn; congruence. Qed.

Lemma blank_no_digit p t : blank p -> p <> ""%string -> no_digit_next (p ++ t).
Proof.
  intros H N. destruct p as [|c p]; [congruence|]. intros x Hx. cbn in Hx. injection Hx as <-.
  inversion H as [|? ? Hc _]; subst. unfold blank_code in Hc. lia.
Qed.

(** Numbers written with blanks between them are read back, all of them, whatever follows. *)
Theorem C58_round_trip : forall W l t, 8 < W ->
  Forall (fun pv => blank (fst pv) /\ fst pv <> ""%string /\ 0 <= snd pv < 2 ^ W) l -> no_digit_next t -> l <> [] ->
  read_all W (List.length l) (opened (write_all W l ++ t)) = (mkIn t true (at_end t), map snd l).
Proof.
  intros W l t HW Hl Ht Hne. induction l as [|[p v] l IH]; [congruence|].
  inversion Hl as [|? ? (Hp & Np & Hv) Hr]; subst. cbn [fst snd] in *. cbn [List.length read_all write_all map].
  rewrite !string_app_assoc.
  pose proof (C58_reads_numerals W p ""%string (bni_write W v) v (write_all W l ++ t) 0 HW Hp ltac:(left; reflexivity)
    (C58_writes_numerals W v HW ltac:(lia))) as K. cbn [append] in K. rewrite K.
  - rewrite (proj2 (Z.leb_gt _ _)) by lia. change (String.eqb "" "-") with false. cbv iota.
    destruct l as [|pv l]; [reflexivity|].
    assert (at_end (write_all W (pv :: l) ++ t) = false) as E.
    { destruct pv as [q w]. inversion Hr as [|? ? (_ & Nq & _) _]; subst. cbn [fst] in Nq. destruct q; [congruence|reflexivity]. }
    rewrite E. unfold opened in IH. rewrite IH; [reflexivity|auto|discriminate].
  - destruct l as [|[q w] l]; [exact Ht|]. inversion Hr as [|? ? (Hq & Nq & _) _]; subst. cbn [write_all fst] in *.
    rewrite string_app_assoc. apply blank_no_digit; auto.
Qed.
Print Assumptions C58_round_trip.

(** The 8-bit type is read and written as a character: its blanks are skipped, everything else comes back, and the next
    read fails and changes nothing. *)
Theorem C58_bytes : forall l num, Forall (fun v => 0 <= v < 256) l ->
  let kept := filter (fun v => negb ((v =? 32) || ((9 <=? v) && (v <=? 13)))) l in
  let (s, r) := read_all 8 (List.length kept) (opened (write_all 8 (map (fun v => (""%string, v)) l))) in
  r = kept /\ fine s = true /\ fine (fst (bni_read 8 s num)) = false /\ snd (bni_read 8 s num) = num.
Proof.
  intros l num Hl. cbv zeta.
  assert (forall l, Forall (fun v => 0 <= v < 256) l ->
    let kept := filter (fun v => negb ((v =? 32) || ((9 <=? v) && (v <=? 13)))) l in
    exists t, blank t /\ read_all 8 (List.length kept) (opened (write_all 8 (map (fun v => (""%string, v)) l))) = (opened t, kept)) as K.
  { clear. induction l as [|v l IH]; intros H; [exists ""%string; split; [constructor|reflexivity]|].
    inversion H as [|? ? Hv Hr]; subst. destruct (IH Hr) as (t & Ht & Et). cbn [filter map write_all append].
    set (kept := filter (fun v => negb ((v =? 32) || ((9 <=? v) && (v <=? 13)))) l) in *. cbv zeta in Et.
    change (bni_write 8 v) with (String (ascii_of_N (Z.to_N v)) EmptyString). cbn [append].
    assert (code (ascii_of_N (Z.to_N v)) = v) as Ec by (unfold code; rewrite N_ascii_embedding; lia).
    destruct ((v =? 32) || ((9 <=? v) && (v <=? 13))) eqn:Eb; cbn [negb].
    - assert (is_space (ascii_of_N (Z.to_N v)) = true) as Es by (unfold is_space; rewrite Ec; exact Eb).
      destruct (List.length kept) as [|k] eqn:Ek.
      + exists (String (ascii_of_N (Z.to_N v)) t). injection Et as Et1 Et2. split.
        * constructor; [rewrite <- code_codes; apply is_space_iff, Es|exact Ht].
        * cbn [read_all]. f_equal; [|exact Et2]. unfold opened. f_equal. f_equal. exact Et1.
      + exists t. split; [exact Ht|]. rewrite <- Et. cbn [read_all].
        assert (forall u n, bni_read 8 (opened (String (ascii_of_N (Z.to_N v)) u)) n = bni_read 8 (opened u) n) as R.
        { intros u n. unfold bni_read, sentry, opened. cbn [fine ended text andb negb skip_spaces]. rewrite Es. reflexivity. }
        rewrite R. reflexivity.
    - exists t. split; [exact Ht|]. cbn [List.length read_all].
      assert (is_space (ascii_of_N (Z.to_N v)) = false) as Es by (unfold is_space; rewrite Ec; exact Eb).
      assert (forall u n, bni_read 8 (opened (String (ascii_of_N (Z.to_N v)) u)) n = (opened u, v)) as R.
      { intros u n. unfold bni_read, sentry, opened. cbn [fine ended text andb negb skip_spaces]. rewrite Es.
        cbn [negb text]. change (8 =? 8) with true. cbv iota. rewrite Ec. reflexivity. }
      rewrite R.
      rewrite Et. reflexivity. }
  destruct (K l Hl) as (t & Ht & ->). cbv zeta. split; [reflexivity|]. split; [reflexivity|].
  unfold bni_read, sentry, opened. cbn [fine ended text andb negb].
  assert (skip_spaces t = ""%string) as ->.
  { pose proof (skip_blank t ""%string Ht) as S. assert ((t ++ "")%string = t) as E by (clear; induction t; cbn; congruence).
    rewrite E in S. exact S. }
  split; reflexivity.
Qed.
Print Assumptions C58_bytes.

(** So not every number comes back: *)
Definition C58_full_statement : Prop := forall W v num, In W [8; 16; 32; 64] -> 0 <= v < 2 ^ W -> snd (bni_read W (opened (bni_write W v)) num) = v.
Theorem C58_byte_refuted : ~ C58_full_statement.
Proof. intros H. specialize (H 8 32 0 ltac:(left; reflexivity) ltac:(lia)). discriminate. Qed.
Print Assumptions C58_byte_refuted.

(** Whatever the text, what is read is a number of the type, and a read that fails is not followed by one that succeeds. *)
Theorem C58_any_text : forall W s num, In W [8; 16; 32; 64] -> 0 <= num < 2 ^ W ->
  0 <= snd (bni_read W s num) < 2 ^ W /\
  (fine s = false -> snd (bni_read W s num) = num /\ fine (fst (bni_read W s num)) = false).
Proof.
  intros W s num HW Hn.
  assert (8 <= W) as H8 by (cbn in HW; lia).
  assert (2 ^ 8 <= 2 ^ W) as Hp by (apply Z.pow_le_mono_r; lia).
  split.
  - unfold bni_read. destruct (sentry s) as [s' b]. destruct b; cbn [negb]; [|exact Hn].
    destruct (Z.eqb_spec W 8) as [->|_].
    + destruct (text s') as [|c r]; [exact Hn|]. cbn [snd]. unfold code. pose proof (nat_ascii_bounded c) as B. unfold nat_of_ascii in B. lia.
    + unfold get_unsigned. 
      set (st := match text s' with String c r => if code c =? 45 then (true, r) else if code c =? 43 then (false, r) else (false, text s') | EmptyString => (false, text s') end).
      assert (forall u acc, 0 <= acc -> 0 <= fst (take_digits u acc)) as T.
      { induction u as [|c u IH]; intros acc Ha; cbn [take_digits fst]; auto.
        destruct (is_digit c) eqn:E; [|exact Ha]. apply IH. apply is_digit_iff in E. lia. }
      destruct st as [ng t]. specialize (T t 0 ltac:(lia)). destruct (take_digits t 0) as [v rest]. cbn [fst] in T.
      destruct (negb _); cbn [snd]; [lia|]. destruct (Z.leb_spec (2 ^ W) v); cbn [snd]; [lia|].
      destruct ng; [apply Z.mod_pos_bound; lia|lia].
  - intros Hf. unfold bni_read, sentry. rewrite Hf. cbn [andb negb fst snd fine]. auto.
Qed.
Print Assumptions C58_any_text.

Open Scope string_scope.
Example C58_cases :
  read_all 32 2 (opened (write_all 32 [(" ", 4294967295); ("  ", 7)])) = (mkIn "" true true, [4294967295; 7])%Z /\
  bni_read 16 (opened "65536,") 3 = (mkIn "," false false, 65535)%Z /\ bni_read 16 (opened "-1") 3 = (mkIn "" true true, 65535)%Z /\
  bni_read 32 (opened "x") 3 = (mkIn "x" false false, 0)%Z /\
  read_all 8 2 (opened "65") = (mkIn "" true false, [54; 53])%Z /\
  read_all 8 2 (opened (write_all 8 [("", 65); ("", 32); ("", 66)])) = (mkIn "" true false, [65; 66])%Z.
Proof. repeat split. Qed.
