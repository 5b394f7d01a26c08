(** * Property C46: the compression client of tests/compress_test.cpp *)
From Verif Require Import Base Spec Limits Fourier Bignum Outcome Compress Wp ValueProof BignumProof CompressProof SignedText SignedTextProof CompressDebugProof.
From Verif Require Import Ieee IeeeProof MulOpProof PropObject PropMul.

(** doubling a base-256 number under binary64 *)
Lemma double_ieee ct cosf sinf fuel m out : accurate cosf sinf -> Z.of_nat m + 1 <= 2 ^ 25 -> 25 < Z.of_nat fuel ->
  good 256 out -> desc out = BN_POS -> (length (data out) <= m)%nat ->
  returns (op_mul base256 (ieee ct cosf sinf) fuel out (mkBN BN_POS [2]))
    (fun z => good 256 z /\ canonical (data z) /\ desc z = BN_POS /\ value 256 (data z) = value 256 (data out) * 2).
Proof.
  intros HA Hm Hf (Fo & Do & Co) Po Hl. eapply returns_mono.
  - apply (C17_per_type ct cosf sinf base256 (2 ^ 25) 1 fuel out (mkBN BN_POS [2])); auto.
    + unfold safe_lengths. cbn [In]. auto 10.
    + left; reflexivity.
    + repeat constructor; lia.
    + cbn [data length]. lia.
    + cbn [data length]. lia.
    + cbn [data length]. lia.
  - intros z (Gz & Cz & Vz & Dz). change (base base256) with 256 in *.
    assert (desc z = BN_POS) as Pz by (apply Dz; auto). repeat split; auto; try apply Gz.
    unfold signed_value in Vz. rewrite Pz, Po in Vz. cbn [desc data value] in Vz. lia.
Qed.

(** Compressing a text and decompressing the result writes the text again, for every text whose last byte is in
    1..127 or 192..255 -- with a signed char type, for every text of bytes in 0..127 not ending in 0.  (The program
    first divides a number with a superfluous high-order zero and later relies on 2/2 being 0; the two errors cancel.) *)
Theorem C46_roundtrip : forall dbg ct cosf sinf char_signed fuel text, accurate cosf sinf ->
  Forall (fun c => 0 <= c < 256) text -> (char_signed = true -> Forall (fun c => c < 128) text) ->
  text <> [] -> (0 < last text 0 < 128 \/ 192 <= last text 0) ->
  Z.of_nat (length text) < 2 ^ 25 -> 8 * Z.of_nat (length text) + 26 <= Z.of_nat fuel ->
  returns (roundtrip dbg char_signed (ieee ct cosf sinf) fuel text) (fun l => l = text).
Proof.
  intros dbg ct cosf sinf cs fuel text HA Ht Hs Hn Hl Hb Hf. apply roundtrip_any.
  assert (1 <= length text)%nat by (destruct text; [congruence|cbn; lia]).
  eapply returns_mono.
  - apply roundtrip_spec; auto; [lia|]. intros out G P Hlen.
    apply (double_ieee ct cosf sinf fuel (length text)); auto; lia.
  - intros l (Dl & Cl & Vl & _). apply same_text; auto; [lia|]. rewrite Vl. unfold kept.
    destruct (Z.leb_spec 128 (last text 0)), (Z.ltb_spec (last text 0) 192); cbn [andb]; lia.
Qed.
Print Assumptions C46_roundtrip.

(** For a last byte in 128..191 the highest bit of the text is lost: what is written denotes a smaller number. *)
Theorem C46_roundtrip_high_byte_refuted : forall dbg ct cosf sinf fuel text, accurate cosf sinf ->
  Forall (fun c => 0 <= c < 256) text -> text <> [] -> 128 <= last text 0 < 192 ->
  Z.of_nat (length text) < 2 ^ 25 -> 8 * Z.of_nat (length text) + 26 <= Z.of_nat fuel ->
  returns (roundtrip dbg false (ieee ct cosf sinf) fuel text)
    (fun l => l <> text /\ value 256 l = value 256 text - 2 ^ (8 * Z.of_nat (length text) - 1)).
Proof.
  intros dbg ct cosf sinf fuel text HA Ht Hn Hl Hb Hf. apply roundtrip_any.
  assert (1 <= length text)%nat by (destruct text; [congruence|cbn; lia]).
  eapply returns_mono.
  - apply roundtrip_spec; auto; [discriminate|lia|]. intros out G P Hlen.
    apply (double_ieee ct cosf sinf fuel (length text)); auto; lia.
  - intros l (Dl & Cl & Vl & _). unfold kept in Vl.
    rewrite (proj2 (Z.leb_le _ _)), (proj2 (Z.ltb_lt _ _)) in Vl by lia. cbn [andb] in Vl. split; [|exact Vl].
    intros ->. assert (0 < 2 ^ (8 * Z.of_nat (length text) - 1)) by (apply Z.pow_pos_nonneg; lia). lia.
Qed.
Print Assumptions C46_roundtrip_high_byte_refuted.

(** A text ending in zero bytes: the number is kept, the zero bytes are not. *)
Theorem C46_trailing_zeros : forall dbg ct cosf sinf char_signed fuel text, accurate cosf sinf ->
  Forall (fun c => 0 <= c < 256) text -> (char_signed = true -> Forall (fun c => c < 128) text) ->
  text <> [] -> last text 0 = 0 ->
  Z.of_nat (length text) < 2 ^ 25 -> 8 * Z.of_nat (length text) + 26 <= Z.of_nat fuel ->
  returns (roundtrip dbg char_signed (ieee ct cosf sinf) fuel text)
    (fun l => weak_canonical l /\ digits_ok 256 l /\ value 256 l = value 256 text).
Proof.
  intros dbg ct cosf sinf cs fuel text HA Ht Hs Hn Hl Hb Hf. apply roundtrip_any.
  assert (1 <= length text)%nat by (destruct text; [congruence|cbn; lia]).
  eapply returns_mono.
  - apply roundtrip_spec; auto; [lia|]. intros out G P Hlen.
    apply (double_ieee ct cosf sinf fuel (length text)); auto; lia.
  - intros l (Dl & Cl & Vl & _). repeat split; auto. rewrite Vl. unfold kept. rewrite Hl. cbn [Z.leb Z.compare andb]. lia.
Qed.
Print Assumptions C46_trailing_zeros.

(** The number handed from one half to the other: all bits of the text in base-65536 digits (compress alone uses no
    floating-point operation). *)
Theorem C46_compress : forall dbg char_signed fuel text,
  Forall (fun c => 0 <= c < 256) text -> (char_signed = true -> Forall (fun c => c < 128) text) ->
  text <> [] -> (last text 0 < 128 \/ 192 <= last text 0) -> 8 * Z.of_nat (length text) + 11 <= Z.of_nat fuel ->
  returns (compress dbg char_signed fuel text)
    (fun s => desc (fst s) = BN_POS /\ digits_ok 65536 (data (fst s)) /\ value 65536 (data (fst s)) = value 256 text /\
              (1 <= snd s <= 16)%nat).
Proof.
  intros dbg cs fuel text Ht Hs Hn Hl Hf. apply compress_any. destruct (compress_spec cs fuel text Ht Hs Hn Hf) as (_ & _ & R).
  eapply returns_mono; [exact R|]. intros s (P & Ds & _ & Hb & V & _). repeat split; auto; try lia. rewrite V. unfold kept.
  destruct (Z.leb_spec 128 (last text 0)), (Z.ltb_spec (last text 0) 192); cbn [andb]; lia.
Qed.
Print Assumptions C46_compress.

Lemma compress_empty cs fuel : returns (compress false cs fuel []) (fun s => s = (mkBN BN_POS [0], 1%nat)).
Proof.
  unfold compress. eapply returns_bind; [apply make_returns; constructor|]. intros ? ->. cbn [strip rev push_chars].
  eapply returns_bind with (Q := fun x => x = mkBN BN_POS []); [apply returns_ret; reflexivity|]. intros x ->.
  eapply returns_bind; [apply yields_returns, push_back_yields|]. intros ? ->. cbn [desc data app].
  eapply returns_bind; [apply make_returns; repeat constructor; lia|]. intros ? ->. cbn [strip rev app].
  eapply returns_bind with (Q := fun s => s = (mkBN BN_POS [0], mkBN BN_POS [], 0, 0%nat)).
  { destruct fuel; intros al n; (split; [reflexivity|lia]). }
  intros ? ->. eapply returns_bind with (Q := fun d => d = 0).
  { intros al n. split; [reflexivity|lia]. }
  intros ? ->. eapply returns_bind; [apply yields_returns, push_back_yields|]. intros ? ->. apply returns_ret. reflexivity.
Qed.

(** An empty text comes back as one zero byte. *)
Theorem C46_empty_text_refuted : forall dbg ct cosf sinf char_signed fuel, accurate cosf sinf -> 26 <= Z.of_nat fuel ->
  returns (roundtrip dbg char_signed (ieee ct cosf sinf) fuel []) (fun l => l = [0]).
Proof.
  intros dbg ct cosf sinf cs fuel HA Hf. apply roundtrip_any. unfold roundtrip. pose proof (compress_empty cs fuel) as R.
  eapply returns_bind; [exact R|]. intros ? ->. eapply returns_mono.
  - refine (decompress_spec (ieee ct cosf sinf) fuel 1 _ 0 1 fuel (mkBN BN_POS [0], 1%nat) _ eq_refl _ _ _ _); try lia.
    + intros out G P Hl. apply (double_ieee ct cosf sinf fuel 1); auto; lia.
    + unfold packed. cbn [fst snd desc data length value]. repeat split; auto; try lia; try discriminate.
      repeat constructor; lia.
  - intros l (Dl & [Cl|Cl] & Vl & Nl); [|exact Cl]. exfalso.
    destruct (exists_last Nl) as (v & t & E). rewrite E in *. unfold canonical in Cl. rewrite last_last in Cl.
    apply Forall_app in Dl. destruct Dl as [Dv Dt]. inversion Dt; subst. rewrite value_app in Vl. cbn [value] in Vl.
    pose proof (value_bounds 256 ltac:(lia) v Dv). nia.
Qed.
Print Assumptions C46_empty_text_refuted.

(** With a signed char type the text is taken for the number whose digits are its signed chars.  If that number is
    negative, what comes back are its digits in two's complement, one byte more than the text. *)
Theorem C46_signed_char : forall dbg ct cosf sinf fuel text, accurate cosf sinf ->
  Forall (fun c => 0 <= c < 256) text -> text <> [] ->
  Z.of_nat (length text) + 1 < 2 ^ 25 -> 8 * Z.of_nat (length text) + 26 <= Z.of_nat fuel ->
  returns (roundtrip dbg true (ieee ct cosf sinf) fuel text)
    (fun l => digits_ok 256 l /\ weak_canonical l /\ l <> [] /\
              value 256 l = signed_number text mod 256 ^ Z.of_nat (S (length text))).
Proof.
  intros dbg ct cosf sinf fuel text HA Ht Hn Hb Hf. apply roundtrip_any. unfold roundtrip.
  eapply returns_bind; [apply (compress_signed_spec fuel text Ht Hn); lia|]. intros s Hp. cbv beta.
  pose proof (Z.mod_pos_bound (signed_number text) (256 ^ Z.of_nat (S (length text))) ltac:(apply Z.pow_pos_nonneg; lia)) as Hm.
  eapply returns_mono.
  - apply (decompress_spec (ieee ct cosf sinf) fuel (S (length text))) with (T := signed_bits text)
      (D := signed_number text mod 256 ^ Z.of_nat (S (length text))); auto; try lia.
    + intros out G P Hlen. apply (double_ieee ct cosf sinf fuel (S (length text))); auto; lia.
    + unfold signed_bits. destruct (_ <? _); lia.
    + destruct (signed_fits text Ht) as [_ K]. exact K.
  - intros l (D & C & V & N). auto.
Qed.
Print Assumptions C46_signed_char.

(** So no text with a byte from 128 on comes back. *)
Theorem C46_signed_char_refuted : forall dbg ct cosf sinf fuel text, accurate cosf sinf ->
  Forall (fun c => 0 <= c < 256) text -> Exists (fun c => 128 <= c) text ->
  Z.of_nat (length text) + 1 < 2 ^ 25 -> 8 * Z.of_nat (length text) + 26 <= Z.of_nat fuel ->
  returns (roundtrip dbg true (ieee ct cosf sinf) fuel text) (fun l => l <> text).
Proof.
  intros dbg ct cosf sinf fuel text HA Ht He Hb Hf. apply roundtrip_any.
  eapply returns_mono; [apply (C46_signed_char false); auto; intros ->; inversion He|].
  intros l (_ & _ & _ & V) ->. apply (signed_differs text He). exact V.
Qed.
Print Assumptions C46_signed_char_refuted.

(** "E" with an acute accent in UTF-8 between two letters: 'a' 195 137 'z' comes back as 'a' 195 136 'y'; the last two
    letters alone, 195 137, come back as three bytes. *)
Example C46_utf8 : accurate libm_cos libm_sin /\
  (exists n, run (roundtrip false true (ieee unfused libm_cos libm_sin) 60 [97; 195; 137; 122]) = Ret [97; 195; 136; 121] n) /\
  (exists n, run (roundtrip false true (ieee unfused libm_cos libm_sin) 60 [195; 137]) = Ret [195; 136; 255] n).
Proof.
  split; [exact libm_accurate|].
  assert (forall text l, Forall (fun c => 0 <= c < 256) text -> text <> [] -> (length text <= 4)%nat ->
    digits_ok 256 l -> canonical l -> value 256 l = signed_number text mod 256 ^ Z.of_nat (S (length text)) -> 0 < value 256 l ->
    exists n, run (roundtrip false true (ieee unfused libm_cos libm_sin) 60 text) = Ret l n) as K.
  { intros text l Ht Hn Hl Dl Cl Vl Hp.
    destruct (returns_run _ _ (C46_signed_char false unfused libm_cos libm_sin 60 text libm_accurate Ht Hn ltac:(lia) ltac:(lia)))
      as (l' & n & E & D & C & N & V).
    exists n. rewrite E. f_equal. apply (value_inj 256 ltac:(lia)); auto; [|congruence].
    destruct C as [C|C]; [exact C|]. rewrite C in V. cbn [value] in V. lia. }
  split; (apply K; [repeat constructor; lia|discriminate|cbn; lia|repeat constructor; lia|unfold canonical; cbn; lia|reflexivity|reflexivity]).
Qed.

(** The hypotheses hold for "Hi!" under a concrete accurate library; compress evaluates to the stated number. *)
Example C46_hi : accurate libm_cos libm_sin /\
  exists n, run (roundtrip false true (ieee unfused libm_cos libm_sin) 60 [72; 105; 33]) = Ret [72; 105; 33] n.
Proof.
  split; [exact libm_accurate|].
  destruct (returns_run _ _ (C46_roundtrip false unfused libm_cos libm_sin true 60 [72; 105; 33] libm_accurate
    ltac:(repeat constructor; lia) ltac:(repeat constructor; lia) ltac:(discriminate) ltac:(cbn; lia) ltac:(cbn; lia) ltac:(cbn; lia)))
    as (l & n & E & ->).
  exists n. exact E.
Qed.

Example C46_hi_compressed : exists n, run (compress false true 60 [72; 105; 33]) = Ret (mkBN BN_POS [26952; 33; 0], 1%nat) n.
Proof. eexists. vm_compute. reflexivity. Qed.

Example C46_high_byte : exists n, run (compress false false 60 [72; 200]) = Ret (mkBN BN_POS [51272], 16%nat) n.
Proof. eexists. vm_compute. reflexivity. Qed.
