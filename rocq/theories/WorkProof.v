(** * Rounds of sums, differences and products: lemmas *)
From Verif Require Import Base Limits Compare AddSub Fourier Multiplication Work.
From Verif Require Import Wp DivWorkProof Pow2Proof.

Ltac erase1 := match goal with
  | |- without_count (match ?m with _ => _ end) = _ => destruct m as [? ?|? ?|?|]; try reflexivity
  end.

Lemma add_loop_erases L inv : forall fuel out oi ii rem k al n,
  without_count (add_loop_counted L inv fuel out oi ii rem k al n) = add_loop L inv fuel out oi ii rem al n.
Proof.
  induction fuel as [|f IH]; intros; cbn [add_loop add_loop_counted]; [reflexivity|]. unfold bind.
  do 5 (cbv zeta; erase1). destruct (_ && _ && _); [reflexivity|apply IH].
Qed.
Lemma sub_loop_erases L inv : forall fuel out oi ii nb k al n,
  without_count (sub_loop_counted L inv fuel out oi ii nb k al n) = sub_loop L inv fuel out oi ii nb al n.
Proof.
  induction fuel as [|f IH]; intros; cbn [sub_loop sub_loop_counted]; [reflexivity|]. unfold bind.
  do 3 (cbv zeta; erase1). destruct (_ && _); [reflexivity|apply IH].
Qed.
Lemma pop_erases : forall i v k al n, without_count (pop_zeros_counted i v k al n) = pop_zeros i v al n.
Proof.
  induction i as [|i IH]; intros; cbn [pop_zeros pop_zeros_counted]; [reflexivity|]. unfold bind. erase1. destruct (_ =? 0); [|reflexivity].
  erase1. apply IH.
Qed.
Lemma sub_erases L out inv al n : without_count (sub_counted L out inv al n) = abs_val_sub L false out inv al n.
Proof.
  unfold sub_counted, abs_val_sub. unfold bind at 3. cbn [ret]. unfold bind.
  rewrite <- (sub_loop_erases L inv (3 + length out + length (inv out)) out 0 0 0 0).
  destruct (sub_loop_counted L inv (3 + length out + length (inv out)) out 0 0 0 0 al n) as [[v c] n1|e n1|u|]; try reflexivity.
  cbn [without_count fst snd]. rewrite <- (pop_erases (length v) v 0).
  destruct (pop_zeros_counted (length v) v 0 al n1) as [[w d] n2|e n2|u|]; reflexivity.
Qed.

Lemma fft_erases P : forall fuel x, fft_complex P fuel x = match fft_counted P fuel x with Some (y, _) => Some y | None => None end.
Proof.
  induction fuel as [|f IH]; intros x; cbn [fft_complex fft_counted]; [reflexivity|]. destruct (length x =? 1)%nat; [reflexivity|].
  rewrite !IH. destruct (fft_counted P f (evens x)) as [[e i]|]; [|reflexivity]. destruct (fft_counted P f (odds x)) as [[o j]|]; reflexivity.
Qed.
Lemma carry_erases P L : forall l c acc k al n, without_count (carry_counted P L l c acc k al n) = carry_loop L P l c acc al n.
Proof.
  induction l as [|x l IH]; intros; cbn [carry_loop carry_counted]; [reflexivity|]. unfold bind. erase1. cbv zeta. destruct (_ =? 0); [reflexivity|apply IH].
Qed.
Lemma trim_erases v : forall i al n, without_count (trim_counted v i al n) = count_high_zeros v i al n.
Proof.
  induction i as [|i IH]; intros; cbn [count_high_zeros trim_counted]; [reflexivity|]. unfold bind. erase1. destruct (negb _); [reflexivity|].
  rewrite <- IH. match goal with |- context [trim_counted v i al ?m] => destruct (trim_counted v i al m) as [[? ?] ?|? ?|?|] end; reflexivity.
Qed.
Lemma mul_erases P L fuel a b al n : without_count (mul_counted P L fuel a b al n) = mul_strassen L P fuel a b al n.
Proof.
  unfold mul_counted, mul_strassen, convolute_fft, ifft_complex. unfold bind at 1 4. destruct (alloc al n) as [[] n1|e n1|u|]; try reflexivity. cbv zeta.
  rewrite fft_erases. destruct (fft_counted P fuel (create_fft_table P a b)) as [[tr i]|]; [|reflexivity].
  rewrite fft_erases. destruct (fft_counted P fuel _) as [[y j]|]; [|reflexivity]. unfold bind.
  rewrite <- (carry_erases P L _ 0 [] 0). match goal with |- context [carry_counted P L ?l ?c ?acc ?k al n1] => destruct (carry_counted P L l c acc k al n1) as [[v c'] n2|e n2|u|] end; try reflexivity.
  cbn [without_count fst snd]. rewrite <- (trim_erases v). destruct (trim_counted v (length v) al n2) as [[z t] n3|e n3|u|]; reflexivity.
Qed.

Lemma row_erases L a bi i : forall m j r rem k al n, without_count (naive_row_counted L a bi i m j r rem k al n) = naive_row L a bi i m j r rem al n.
Proof.
  induction m as [|m IH]; intros; cbn [naive_row naive_row_counted]; [reflexivity|]. cbv zeta. unfold bind. do 3 erase1.
  destruct (_ =? 0); [reflexivity|]. erase1. apply IH.
Qed.
Lemma rows_erases L a b : forall m i r k al n, without_count (naive_rows_counted L a b m i r k al n) = naive_rows L a b m i r al n.
Proof.
  induction m as [|m IH]; intros; cbn [naive_rows naive_rows_counted]; [reflexivity|]. cbv zeta. unfold bind. erase1.
  rewrite <- (row_erases L a a0 i (length a) 0 r 0 0).
  destruct (naive_row_counted L a a0 i (length a) 0 r 0 0 al n0) as [[rr c] n2|e n2|u|]; try reflexivity. cbn [without_count fst snd].
  do 2 erase1. apply IH.
Qed.
Lemma naive_erases L a b al n : without_count (naive_counted L a b al n) = mul_naive L a b al n.
Proof.
  unfold naive_counted, mul_naive. cbv zeta. destruct (_ =? 0)%nat; [reflexivity|]. unfold bind. erase1. destruct (_ || _); [reflexivity|apply rows_erases].
Qed.

(** ** Counts *)

Lemma may_vset {A} (v : list A) i d : may (vset v i d) (fun w => length w = length v /\ (i < length v)%nat).
Proof.
  unfold vset. destruct (Nat.ltb_spec i (length v)); [|apply may_undef]. apply may_ret. rewrite app_length, firstn_length. cbn [length]. rewrite skipn_length. lia.
Qed.

Lemma add_loop_rounds L inv : forall fuel out oi ii rem k, (oi <= length out)%nat ->
  may (add_loop_counted L inv fuel out oi ii rem k) (fun p => (oi < length (fst p))%nat /\ snd p = (k + (length (fst p) - oi))%nat).
Proof.
  induction fuel as [|f IH]; intros out oi ii rem k H; cbn [add_loop_counted]; [apply may_nofuel|].
  eapply may_bind with (Q := fun v => (oi < length v)%nat).
  { destruct (Nat.eqb_spec oi (length out)).
    - unfold vpush. eapply may_bind; [apply may_any|]. intros _ _. apply may_ret. rewrite app_length. cbn. lia.
    - apply may_ret. lia. }
  intros v Hv. eapply may_bind; [apply may_any|]. intros d _. eapply may_bind; [apply may_any|]. intros o _. cbv zeta.
  eapply may_bind; [apply may_any|]. intros dr _. eapply may_bind; [apply may_vset|]. intros w [Hw _].
  destruct (Nat.eqb_spec (S oi) (length w)) as [E|E]; cbn [andb].
  - destruct (_ && _).
    + apply may_ret. cbn [fst snd]. lia.
    + eapply may_mono; [apply IH; lia|]. intros [u c] [H1 H2]. cbn [fst snd] in *. lia.
  - eapply may_mono; [apply IH; lia|]. intros [u c] [H1 H2]. cbn [fst snd] in *. lia.
Qed.

Lemma sub_loop_rounds L inv : forall fuel out oi ii nb k,
  may (sub_loop_counted L inv fuel out oi ii nb k) (fun p => length (fst p) = length out /\ (oi < length out)%nat /\ snd p = (k + (length out - oi))%nat).
Proof.
  induction fuel as [|f IH]; intros out oi ii nb k; cbn [sub_loop_counted]; [apply may_nofuel|].
  eapply may_bind; [apply may_any|]. intros d _. eapply may_bind; [apply may_any|]. intros o _. cbv zeta.
  eapply may_bind; [apply may_vset|]. intros w [Hw Hoi].
  destruct (Nat.eqb_spec (S oi) (length w)) as [E|E]; cbn [andb].
  - destruct (_ <=? _)%nat.
    + apply may_ret. cbn [fst snd]. lia.
    + eapply may_mono; [apply IH|]. intros [u c] (H1 & H2 & H3). cbn [fst snd] in *. lia.
  - eapply may_mono; [apply IH|]. intros [u c] (H1 & H2 & H3). cbn [fst snd] in *. lia.
Qed.

Lemma pop_rounds : forall i v k, length v = i ->
  may (pop_zeros_counted i v k) (fun p => snd p = (k + (length v - length (fst p)) + (if (length (fst p) =? 0)%nat then 0 else 1))%nat /\ (length (fst p) <= length v)%nat).
Proof.
  induction i as [|i IH]; intros v k H; cbn [pop_zeros_counted].
  - apply may_ret. cbn [fst snd]. rewrite H. cbn. lia.
  - eapply may_bind; [apply may_any|]. intros x _. destruct (x =? 0).
    + eapply may_bind with (Q := fun w => length w = i).
      * unfold vpop. destruct v as [|y v]; [apply may_undef|]. apply may_ret. rewrite removelast_firstn_len, firstn_length. lia.
      * intros w Hw. eapply may_mono; [apply IH, Hw|]. intros [u c] [H1 H2]. cbn [fst snd] in *. split; lia.
    + apply may_ret. cbn [fst snd]. rewrite H. cbn. lia.
Qed.

Lemma halves_length {A} : forall h (x : list A), length x = (2 * h)%nat -> length (evens x) = h /\ length (odds x) = h.
Proof.
  induction h as [|h IH]; intros x H.
  - destruct x; [split; reflexivity|cbn in H; lia].
  - destruct x as [|a [|b x]]; cbn [length] in H; try lia. cbn [evens odds length]. destruct (IH x ltac:(lia)). lia.
Qed.

Lemma fft_rounds P : forall k fuel x, length x = (2 ^ k)%nat -> (k < fuel)%nat ->
  exists y c, fft_counted P fuel x = Some (y, c) /\ length y = (2 ^ k)%nat /\ (2 * c = k * 2 ^ k)%nat.
Proof.
  induction k as [|k IH]; intros fuel x Hx Hf; (destruct fuel as [|f]; [lia|]); cbn [fft_counted].
  - rewrite Hx. cbn [Nat.pow Nat.eqb]. exists x, 0%nat. rewrite Hx. auto.
  - assert (length x = 2 * 2 ^ k)%nat as Hx2 by (rewrite Hx; cbn [Nat.pow]; lia).
    assert (0 < 2 ^ k)%nat as Hp by (pose proof (Nat.pow_nonzero 2 k ltac:(lia)); lia).
    destruct (Nat.eqb_spec (length x) 1); [lia|].
    destruct (halves_length (2 ^ k) x Hx2) as [L1 L2].
    destruct (IH f (evens x) L1 ltac:(lia)) as (e & i & -> & Le & Ci). destruct (IH f (odds x) L2 ltac:(lia)) as (o & j & -> & Lo & Cj).
    cbv zeta. assert (length x / 2 = 2 ^ k)%nat as Eh by (rewrite Hx2, Nat.mul_comm; apply Nat.div_mul; lia). rewrite Eh.
    eexists. eexists. split; [reflexivity|]. split.
    + rewrite !app_length, !map_length, !combine_length, seq_length, skipn_length, Le, Lo, Hx. cbn [Nat.pow]. lia.
    + rewrite map_length, !combine_length, seq_length, Le, Lo. cbn [Nat.pow]. nia.
Qed.

Lemma carry_rounds P L : forall l c acc k, may (carry_counted P L l c acc k) (fun p => snd p = (k + length l)%nat /\ length (fst p) = (length acc + length l)%nat).
Proof.
  induction l as [|x l IH]; intros c acc k; cbn [carry_counted]; [apply may_ret; cbn; lia|]. eapply may_bind; [apply may_any|]. intros ci _. cbv zeta.
  destruct (_ =? 0); [apply may_undef|]. eapply may_mono; [apply IH|]. intros [v q] [H1 H2]. cbn [fst snd length] in *. rewrite app_length in H2. cbn in H2. lia.
Qed.
Lemma trim_rounds v : forall i, may (trim_counted v i) (fun p => (fst p <= i)%nat /\ snd p = (fst p + (if (fst p =? i)%nat then 0 else 1))%nat).
Proof.
  induction i as [|i IH]; cbn [trim_counted]; [apply may_ret; cbn; lia|]. eapply may_bind; [apply may_any|]. intros x _. destruct (negb _); [apply may_ret; cbn; lia|].
  eapply may_bind; [exact IH|]. intros [a b] [H1 H2]. apply may_ret. cbn [fst snd] in *. change (S a =? S i)%nat with (a =? i)%nat. lia.
Qed.

Lemma mul_rounds P L fuel a b k : fft_size (length a) (length b) = Z.of_nat (2 ^ k) -> (k < fuel)%nat ->
  forall al n, match mul_counted P L fuel a b al n with
               | Ret (v, (x, y, z, t)) _ => x = (k * 2 ^ k)%nat /\ y = (2 ^ k)%nat /\ z = (2 ^ k)%nat /\ (length v <= 2 ^ k)%nat /\
                                            t = (2 ^ k - length v + (if (length v =? 0)%nat then 0 else 1))%nat
               | NoFuel => False
               | _ => True
               end.
Proof.
  intros Hs Hf al n. unfold mul_counted. unfold bind at 1. unfold alloc at 1. destruct (al n); [|exact I]. cbv zeta.
  assert (length (create_fft_table P a b) = (2 ^ k)%nat) as Lt by (unfold create_fft_table; rewrite map_length, seq_length, Hs, Nat2Z.id; reflexivity).
  destruct (fft_rounds P k fuel _ Lt Hf) as (tr & i & -> & Ltr & Ci). rewrite Lt.
  set (table := map (convolve_entry P tr) (seq 0 (2 ^ k))).
  assert (length table = (2 ^ k)%nat) as Lb by (unfold table; rewrite map_length, seq_length; reflexivity).
  destruct (fft_rounds P k fuel (map (cconj P) table) ltac:(rewrite map_length; exact Lb) Hf) as (y & j & -> & Ly & Cj).
  set (inv := map _ y). assert (length inv = (2 ^ k)%nat) as Li by (unfold inv; rewrite map_length; exact Ly).
  pose proof (carry_rounds P L inv 0 [] 0 al (S n)) as Hc.
  assert (forall l c acc q al n, carry_counted P L l c acc q al n <> NoFuel) as Nc.
  { clear. induction l as [|x l IH]; intros c acc q al n; cbn [carry_counted]; [discriminate|]. unfold bind, to_uint.
    destruct (ftrunc P _); [destruct (_ && _)|]; cbn [ret undef]; try discriminate. cbv zeta. destruct (_ =? 0); [discriminate|apply IH]. }
  unfold bind. specialize (Nc inv 0 [] 0%nat al (S n)). destruct (carry_counted P L inv 0 [] 0 al (S n)) as [[v c] n1|e n1|u|]; try exact I; [|congruence].
  cbn [fst snd length] in *. destruct Hc as [Hc1 Hc2].
  pose proof (trim_rounds v (length v) al n1) as Ht.
  assert (forall i al n, trim_counted v i al n <> NoFuel) as Nt.
  { clear. induction i as [|i IH]; intros al n; cbn [trim_counted]; [discriminate|]. unfold bind, vget. destruct (nth_error v i); [|discriminate]. cbn [ret].
    destruct (negb _); [discriminate|]. specialize (IH al n). destruct (trim_counted v i al n); try discriminate. congruence. }
  specialize (Nt (length v) al n1). destruct (trim_counted v (length v) al n1) as [[z t] n2|e n2|u|]; try exact I; [|congruence].
  cbn [fst snd] in Ht. destruct Ht as [Hz ->]. cbn [ret fst snd]. rewrite firstn_length, Hc2, Li, Hc1, Li, Lb. cbn [Nat.add].
  split; [lia|]. split; [reflexivity|]. split; [reflexivity|]. split; [lia|].
  rewrite Hc2, Li in Hz. cbn [Nat.add] in Hz.
  destruct (Nat.eqb_spec z (2 ^ k)), (Nat.eqb_spec (Init.Nat.min (2 ^ k - z) (2 ^ k)) 0); lia.
Qed.

Lemma row_rounds L a bi i : forall m j r rem k, may (naive_row_counted L a bi i m j r rem k) (fun p => snd p = (k + m)%nat).
Proof.
  induction m as [|m IH]; intros; cbn [naive_row_counted]; [apply may_ret; cbn; lia|]. cbv zeta. eapply may_bind; [apply may_any|]. intros aj _.
  eapply may_bind; [apply may_any|]. intros p _. eapply may_bind; [apply may_any|]. intros o _. destruct (_ =? 0); [apply may_undef|].
  eapply may_bind; [apply may_any|]. intros w _. eapply may_mono; [apply IH|]. cbv beta. intros. lia.
Qed.
Lemma rows_rounds L a b : forall m i r k, may (naive_rows_counted L a b m i r k) (fun p => snd p = (k + m * length a)%nat).
Proof.
  induction m as [|m IH]; intros; cbn [naive_rows_counted]; [apply may_ret; cbn; lia|]. eapply may_bind; [apply may_any|]. intros bi _.
  eapply may_bind; [apply row_rounds|]. intros rr Hrr. cbv beta zeta in *. eapply may_bind; [apply may_any|]. intros o _. eapply may_bind; [apply may_any|]. intros w _.
  eapply may_mono; [apply IH|]. cbv beta. intros. lia.
Qed.
Lemma naive_rounds L a b : may (naive_counted L a b) (fun p => snd p = (length a * length b)%nat).
Proof.
  unfold naive_counted. cbv zeta. destruct (Nat.eqb_spec (length a + length b) 0).
  - apply may_ret. cbn. nia.
  - eapply may_bind; [apply may_any|]. intros _ _. destruct (_ || _); [apply may_nofuel|]. eapply may_mono; [apply rows_rounds|]. cbv beta. intros. lia.
Qed.
