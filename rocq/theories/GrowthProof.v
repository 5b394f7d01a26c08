(** * How capacities grow *)
From Verif Require Import Base Spec Limits Compare AddSub Division Fourier Multiplication Bignum Machine While Strict MulMemory Capacity.
From Verif Require Import Wp CapacityProof.

Definition roomy (v : vec) : Prop := (length (items v) <= room v)%nat.

(** a vector that grows has room for what it is asked to hold *)
Definition enough_room (grow : nat -> nat -> nat) : Prop := forall s k, (s + k <= grow s k)%nat.
(** a push_back on a full vector at least doubles the capacity *)
Definition doubling (grow : nat -> nat -> nat) : Prop := forall s, (2 * s <= grow s 1)%nat.

Section Growth.
Context (grow : nat -> nat -> nat) (HG : enough_room grow).

(** ** The size never exceeds the capacity *)

Lemma roomy_push v d : roomy v -> may (cpush grow v d) roomy.
Proof.
  unfold roomy, cpush. intros H. destruct (Nat.ltb_spec (length (items v)) (room v)).
  - apply may_ret. cbn. rewrite app_length. cbn. lia.
  - eapply may_bind; [apply may_any|]. intros _ _. apply may_ret. cbn [items room]. rewrite app_length. cbn [length].
    apply (HG (length (items v)) 1%nat).
Qed.

Lemma roomy_insert v i d : roomy v -> may (cinsert grow v i d) roomy.
Proof.
  unfold roomy, cinsert. intros H. destruct (Nat.leb_spec i (length (items v))); [|apply may_undef]. cbv zeta.
  assert (length (firstn i (items v) ++ d :: skipn i (items v)) = S (length (items v))) as E.
  { rewrite app_length, firstn_length. cbn [length]. rewrite skipn_length. lia. }
  destruct (Nat.ltb_spec (length (items v)) (room v)).
  - apply may_ret. cbn [items room]. lia.
  - eapply may_bind; [apply may_any|]. intros _ _. apply may_ret. cbn [items room]. rewrite E. specialize (HG (length (items v)) 1%nat). lia.
Qed.

Lemma roomy_resize v n d : roomy v -> may (cresize grow v n d) roomy.
Proof.
  unfold roomy, cresize. intros H. cbv zeta.
  assert (length (firstn n (items v) ++ repeat d (n - length (items v))) = n) as E.
  { rewrite app_length, firstn_length, repeat_length. lia. }
  destruct (Nat.leb_spec n (room v)).
  - apply may_ret. cbn [items room]. lia.
  - eapply may_bind; [apply may_any|]. intros _ _. apply may_ret. cbn [items room]. rewrite E.
    specialize (HG (length (items v)) (n - length (items v))%nat). lia.
Qed.

Lemma roomy_copy l : may (ccopy l) roomy.
Proof. unfold ccopy. eapply may_bind; [apply may_any|]. intros _ _. apply may_ret. unfold roomy. cbn. lia. Qed.
Lemma roomy_assign v l : may (cassign v l) roomy.
Proof.
  unfold cassign. destruct (Nat.leb_spec (length l) (room v)); [apply may_ret; exact H|].
  eapply may_bind; [apply may_any|]. intros _ _. apply may_ret. unfold roomy. cbn. lia.
Qed.

Lemma may_attempt {A} (m : M A) (Q : A -> Prop) : may m Q -> may (attempt m) (fun a => match a with inl a => Q a | inr _ => True end).
Proof. intros H al n. specialize (H al n). unfold attempt. destruct (m al n); auto. Qed.

Lemma length_vset {A} (v : list A) i d : may (vset v i d) (fun w => length w = length v).
Proof.
  unfold vset. destruct (Nat.ltb_spec i (length v)); [|apply may_undef]. apply may_ret. rewrite app_length, firstn_length. cbn [length]. rewrite skipn_length. lia.
Qed.

Lemma roomy_add_loop L inv : forall fuel out oi ii rem, roomy out -> may (cadd_loop grow L inv fuel out oi ii rem) (fun r => roomy (fst r)).
Proof.
  induction fuel as [|f IH]; intros out oi ii rem H; cbn [cadd_loop]; [apply may_nofuel|].
  eapply may_bind with (Q := fun a => match a with inl v => roomy v | inr _ => True end).
  - destruct (oi =? length (items out))%nat; [apply may_attempt, roomy_push, H|apply may_ret, H].
  - intros [v|e] Hv; [|apply may_ret; exact H]. eapply may_bind; [apply may_any|]. intros d _. eapply may_bind; [apply may_any|]. intros o _. cbv zeta.
    eapply may_bind; [apply may_any|]. intros dr _. eapply may_bind; [apply length_vset|]. intros w Hw; cbv beta in Hw.
    assert (roomy (mkVec w (room v))) as K by (unfold roomy in *; cbn [items room]; lia).
    destruct (_ && _ && _); [apply may_ret; exact K|apply IH; exact K].
Qed.

Lemma shorter_sub_loop L inv : forall fuel out oi ii nb, may (sub_loop L inv fuel out oi ii nb) (fun w => (length w <= length out)%nat).
Proof.
  induction fuel as [|f IH]; intros; cbn [sub_loop]; [apply may_nofuel|]. eapply may_bind; [apply may_any|]. intros d _.
  eapply may_bind; [apply may_any|]. intros o _. cbv zeta. eapply may_bind; [apply length_vset|]. intros w Hw; cbv beta in Hw.
  destruct (_ && _); [apply may_ret; lia|]. eapply may_mono; [apply IH|]. cbv beta. intros. lia.
Qed.
Lemma shorter_pop : forall i v, may (pop_zeros i v) (fun w => (length w <= length v)%nat).
Proof.
  induction i as [|i IH]; intros v; cbn [pop_zeros]; [apply may_ret; lia|]. eapply may_bind; [apply may_any|]. intros x _.
  destruct (x =? 0); [|apply may_ret; lia]. eapply may_bind with (Q := fun w => (length w <= length v)%nat).
  - unfold vpop. destruct v as [|y v]; [apply may_undef|]. apply may_ret. rewrite removelast_firstn_len. rewrite firstn_length. lia.
  - intros w Hw; cbv beta in Hw. eapply may_mono; [apply IH|]. cbv beta. intros. lia.
Qed.
Lemma roomy_sub L dbg v inv : roomy v -> may (csub L dbg v inv) roomy.
Proof.
  intros H. unfold csub. eapply may_bind with (Q := fun w => (length w <= length (items v))%nat).
  - unfold abs_val_sub. eapply may_bind; [apply may_any|]. intros _ _. eapply may_bind; [apply shorter_sub_loop|]. intros w Hw; cbv beta in Hw.
    eapply may_mono; [apply shorter_pop|]. cbv beta. intros. lia.
  - intros w Hw; cbv beta in Hw. apply may_ret. unfold roomy in *. cbn [items room]. lia.
Qed.

Lemma length_shl L : forall fuel v curr carry, may (shl_loop L fuel v curr carry) (fun r => length (fst r) = length v).
Proof.
  induction fuel as [|f IH]; intros; cbn [shl_loop]; (destruct (_ <? _)%nat; [|apply may_ret; reflexivity]); [apply may_nofuel|].
  eapply may_bind; [apply may_any|]. intros x _. cbv zeta. destruct (_ =? 0); [apply may_undef|].
  eapply may_bind; [apply length_vset|]. intros w Hw; cbv beta in Hw. eapply may_mono; [apply IH|]. cbv beta. intros. congruence.
Qed.
Lemma roomy_shift L v : roomy v -> may (cshift grow L v) roomy.
Proof.
  intros H. unfold cshift. destruct (items v) eqn:E; [apply may_ret; exact H|]. eapply may_bind; [apply length_shl|]. intros r Hr; cbv beta in Hr. cbv zeta.
  assert (roomy (mkVec (fst r) (room v))) as K by (unfold roomy in *; cbn [items room]; rewrite Hr, <- E; exact H).
  destruct (snd r =? 0); [apply may_ret; exact K|]. apply roomy_push, K.
Qed.

Lemma roomy_div_inner L : forall fuel dividend b0 b1 q, roomy b0 -> roomy b1 -> roomy q ->
  may (cdiv_inner grow L fuel dividend b0 b1 q) (fun p => roomy (fst p) /\ roomy (snd p)).
Proof.
  induction fuel as [|f IH]; intros dividend b0 b1 q H0 H1 H2; cbn [cdiv_inner]; [apply may_nofuel|]. eapply may_bind; [apply may_any|]. intros c _.
  destruct c; [|apply may_ret; auto]. eapply may_bind; [apply roomy_assign|]. intros v Hv; cbv beta in Hv.
  eapply may_bind; [apply roomy_shift, H1|]. intros v1 Hv1. eapply may_bind; [apply roomy_shift, H2|]. intros v2 Hv2. apply IH; auto.
Qed.
Lemma roomy_add_local L v inv : roomy v -> may (cadd_local grow L v inv) roomy.
Proof.
  intros H. unfold cadd_local. eapply may_bind; [apply roomy_add_loop, H|]. intros r Hr; cbv beta in Hr. destruct (snd r); [apply may_throw|apply may_ret, Hr].
Qed.
Lemma roomy_div_outer L dbg fi : forall fuel dividend divisor r, roomy dividend -> roomy r -> may (cdiv_outer grow L dbg fi fuel dividend divisor r) roomy.
Proof.
  induction fuel as [|f IH]; intros dividend divisor r H0 H1; cbn [cdiv_outer]; [apply may_nofuel|]. eapply may_bind; [apply may_any|]. intros c _.
  destruct c; [|apply may_ret; auto]. eapply may_bind; [apply roomy_copy|]. intros v Hv; cbv beta in Hv. eapply may_bind; [apply roomy_copy|]. intros v1 Hv1.
  eapply may_bind; [apply roomy_copy|]. intros v2 Hv2. eapply may_bind; [apply roomy_shift, Hv1|]. intros v3 Hv3.
  eapply may_bind; [apply roomy_div_inner; auto|]. intros [b q] [Hb Hq]. cbn [fst snd] in *.
  eapply may_bind; [apply roomy_sub, H0|]. intros v4 Hv4. eapply may_bind with (Q := roomy).
  - destruct (_ <=? _)%nat; apply roomy_add_local; auto.
  - intros v5 Hv5. apply IH; auto.
Qed.

Lemma length_halves {A} : forall n (x : list A), (length x <= n)%nat -> length (evens x) = (length x / 2)%nat /\ length (odds x) = (length x / 2)%nat.
Proof.
  induction n as [|n IH]; intros x Hx; cbv beta in Hx.
  - destruct x; [split; reflexivity|cbn in Hx; lia].
  - destruct x as [|a [|b x]]; [split; reflexivity|split; reflexivity|]. cbn [evens odds length] in *.
    destruct (IH x ltac:(lia)) as [E1 E2]. rewrite E1, E2. replace (S (S (length x)) / 2)%nat with (S (length x / 2)); [auto|].
    replace (S (S (length x))) with (length x + 1 * 2)%nat by lia. rewrite Nat.div_add by lia. lia.
Qed.
Lemma length_fft P : forall fuel x y, fft_complex P fuel x = Some y -> length y = length x.
Proof.
  induction fuel as [|f IH]; intros x y E; cbn [fft_complex] in E; [discriminate|].
  destruct (length x =? 1)%nat; [injection E as ->; reflexivity|].
  destruct (length_halves (length x) x (le_n _)) as [L1 L2].
  destruct (fft_complex P f (evens x)) as [e|] eqn:Ee; [|discriminate]. destruct (fft_complex P f (odds x)) as [o|] eqn:Eo; [|discriminate].
  cbv zeta in E. match type of E with Some ?a = Some ?b => assert (a = b) as <- by (generalize E; generalize a; intros; congruence) end. clear E.
  apply IH in Ee. apply IH in Eo. rewrite !app_length, !map_length, !combine_length, seq_length, skipn_length, Ee, Eo, L1, L2.
  pose proof (Nat.div_mod (length x) 2 ltac:(lia)). pose proof (Nat.mod_upper_bound (length x) 2 ltac:(lia)). lia.
Qed.
Lemma length_carry L P : forall l c acc, may (carry_loop L P l c acc) (fun v => length v = (length acc + length l)%nat).
Proof.
  induction l as [|x l IH]; intros c acc; cbn [carry_loop]; [apply may_ret; cbn; lia|]. eapply may_bind; [apply may_any|]. intros ci _. cbv zeta.
  destruct (_ =? 0); [apply may_undef|]. eapply may_mono; [apply IH|]. cbv beta. intros v ->. rewrite app_length. cbn. lia.
Qed.
Lemma length_detailed P : forall fuel x, may (fft_detailed P fuel x) (fun y => length y = length x).
Proof.
  intros fuel x al n. pose proof (or_fft P fuel x al n) as H. destruct (fft_complex P fuel x) as [y|] eqn:E.
  - destruct H as [(k & _ & ->)|(k & j & _ & _ & ->)]; [cbn; exact (length_fft P fuel x y E)|exact I].
  - destruct H as [(k & _ & ->)|(k & j & _ & _ & ->)]; exact I.
Qed.
Lemma roomy_mul L P fuel a b : may (cmul L P fuel a b) roomy.
Proof.
  unfold cmul. eapply may_bind with (Q := fun w => (length w <= Z.to_nat (fft_size (length a) (length b)))%nat).
  - unfold mul_detailed. set (N := Z.to_nat (fft_size (length a) (length b))).
    eapply may_bind with (Q := fun t => length t = N).
    { unfold create_detailed. eapply may_bind; [apply may_any|]. intros _ _. apply may_ret. unfold create_fft_table. rewrite map_length, seq_length. reflexivity. }
    intros t Ht; cbv beta in Ht. eapply may_bind with (Q := fun x => length x = N).
    { unfold convolute_detailed. eapply may_bind; [apply may_any|]. intros _ _. eapply may_bind; [apply may_any|]. intros tr _. apply may_ret.
      rewrite map_length, seq_length. exact Ht. }
    intros x Hx; cbv beta in Hx. eapply may_bind with (Q := fun x => length x = N).
    { unfold ifft_detailed. eapply may_bind; [apply length_detailed|]. intros y Hy; cbv beta in Hy. apply may_ret. rewrite map_length, Hy, map_length. exact Hx. }
    intros y Hy; cbv beta in Hy. eapply may_bind; [apply may_any|]. intros _ _. eapply may_bind; [apply length_carry|]. intros v Hv; cbv beta in Hv. cbn [length] in Hv.
    eapply may_bind; [apply may_any|]. intros z _. apply may_ret. rewrite firstn_length. lia.
  - intros w Hw; cbv beta in Hw. apply may_ret. exact Hw.
Qed.

Definition roomy_obj (x : obj) : Prop := roomy (ovec x).
Lemma roomy_empty v : roomy (emptied v).
Proof. unfold roomy. cbn. lia. Qed.

Lemma roomy_guarded m bad : may m roomy_obj -> roomy_obj bad -> may (cguarded m bad) (fun a => roomy_obj (fst a)).
Proof.
  intros H Hb. unfold cguarded. eapply may_bind; [apply may_attempt, H|]. intros [x|[]] Hx; try (apply may_ret; assumption). apply may_throw.
Qed.
Lemma roomy_difference L dbg x y d : roomy_obj x -> may (cdifference L dbg x y d) (fun a => roomy_obj (fst a)).
Proof.
  intros Hx. apply roomy_guarded; [|apply roomy_empty]. eapply may_bind; [apply may_any|]. intros c _. destruct c.
  - eapply may_bind; [apply roomy_sub, Hx|]. intros v Hv; cbv beta in Hv. apply may_ret. exact Hv.
  - eapply may_bind; [apply roomy_copy|]. intros t Ht; cbv beta in Ht. eapply may_bind; [apply roomy_sub, Ht|]. intros v Hv; cbv beta in Hv. apply may_ret. exact Hv.
Qed.
Lemma roomy_summed L x y : roomy_obj x -> may (csummed grow L x y) (fun a => roomy_obj (fst a)).
Proof.
  intros Hx. unfold csummed. eapply may_bind; [apply roomy_add_loop, Hx|]. intros [v [e|]] Hv; cbn [fst snd] in *; [|apply may_ret; exact Hv].
  destruct e; try (apply may_ret; apply roomy_empty). apply may_throw.
Qed.
Lemma roomy_compound E op x y : roomy_obj x -> may (ccompound grow E op x y) (fun a => roomy_obj (fst a)).
Proof.
  intros Hx. destruct op; cbn [ccompound].
  - unfold cadd_assign. destruct (negb _); [apply may_ret, roomy_empty|].
    repeat (destruct (_ && _); [auto using roomy_difference, roomy_summed|]). apply roomy_summed, Hx.
  - unfold csub_assign. destruct (negb _); [apply may_ret, roomy_empty|].
    destruct (_ && _); [apply roomy_difference, Hx|]. destruct (_ || _); [|apply roomy_difference, Hx].
    apply roomy_guarded; [|apply roomy_empty]. eapply may_bind; [apply may_any|]. intros c _. eapply may_bind; [apply roomy_copy|]. intros t Ht; cbv beta in Ht.
    eapply may_bind; [apply roomy_sub, Ht|]. intros v Hv; cbv beta in Hv. apply may_ret. exact Hv.
  - unfold cmul_assign. destruct (negb _); [apply may_ret, roomy_empty|]. apply roomy_guarded; [|apply roomy_empty].
    eapply may_bind; [apply roomy_mul|]. intros v Hv; cbv beta in Hv. apply may_ret. exact Hv.
  - unfold cdiv_assign. destruct (negb _); [apply may_ret, roomy_empty|]. cbv zeta.
    destruct (match cdata x y with [z] => z =? wrap (wd (eL E)) (bmin (eL E)) | _ => false end); [apply may_ret, roomy_empty|].
    destruct (match cdata x y with [z] => z =? wrap (ws (eL E)) 1 | _ => false end); [apply may_ret, Hx|].
    destruct (match items (ovec x) with [] => true | [z] => z =? wrap (wd (eL E)) (bmin (eL E)) | _ => false end); [apply may_ret, Hx|].
    apply roomy_guarded; [|apply roomy_empty]. eapply may_bind; [apply may_any|]. intros c _. destruct c.
    + eapply may_bind with (Q := roomy); [|intros v Hv; apply may_ret; exact Hv]. unfold cdiv. eapply may_bind; [apply roomy_copy|].
      intros r Hr; cbv beta in Hr. apply roomy_div_outer; auto.
    + eapply may_bind; [apply roomy_assign|]. intros v Hv; cbv beta in Hv. apply may_ret. exact Hv.
Qed.

Definition all_roomy (s : cregs) : Prop := forall r, roomy_obj (s r).
Lemma roomy_upd s r x : all_roomy s -> roomy_obj x -> all_roomy (cupd s r x).
Proof. intros Hs Hx i. unfold cupd. destruct (i =? r)%nat; auto. Qed.
Lemma roomy_store h s r m : all_roomy s -> may m roomy_obj -> may (cstore h s r m) all_roomy.
Proof.
  intros Hs H. unfold cstore. destruct h.
  - eapply may_bind; [apply may_attempt, H|]. intros [x|e] Hx; apply may_ret; auto using roomy_upd.
  - eapply may_bind; [exact H|]. intros x Hx; cbv beta in Hx. apply may_ret, roomy_upd; auto.
Qed.
Lemma roomy_assigned h s r m : all_roomy s -> may m (fun a => roomy_obj (fst a)) -> may (cassigned_to h s r m) all_roomy.
Proof.
  intros Hs H. unfold cassigned_to. eapply may_bind; [exact H|]. intros a Ha. destruct h; [apply may_ret, roomy_upd; auto|].
  destruct (snd a); [apply may_throw|apply may_ret, roomy_upd; auto].
Qed.
Lemma roomy_growing x f : may (f (ovec x)) roomy -> may (growing x f) roomy_obj.
Proof. intros H. unfold growing. eapply may_bind; [exact H|]. intros v Hv; cbv beta in Hv. apply may_ret. exact Hv. Qed.
Lemma roomy_in_place x f : roomy_obj x -> may (f (items (ovec x))) (fun w => (length w <= length (items (ovec x)))%nat) -> may (in_place x f) roomy_obj.
Proof.
  intros Hx H. unfold in_place. eapply may_bind; [exact H|]. intros w Hw; cbv beta in Hw. apply may_ret. unfold roomy_obj, roomy in *. cbn [ovec items room]. lia.
Qed.

Lemma roomy_step h E i s : all_roomy s -> may (cstep grow h E i s) all_roomy.
Proof.
  intros Hs.
  assert (forall l i, may (verase l i) (fun w : list Z => (length w <= length l)%nat)) as Her.
  { intros l j. unfold verase. destruct (Nat.ltb_spec j (length l)); [|apply may_undef]. apply may_ret. rewrite app_length, firstn_length, skipn_length. lia. }
  destruct i as [r d l|r t|r t|op r t|op r t u|r d|r|r n d|r d|r d|r d pos|r|r|r pos|r j d]; cbn [cstep].
  - apply roomy_store; [exact Hs|]. unfold cmake. destruct l as [|x l]; [apply may_ret; unfold roomy_obj, roomy; cbn; lia|]. cbv zeta.
    eapply may_bind; [apply roomy_resize; unfold roomy; cbn; lia|]. intros v Hv; cbv beta in Hv. eapply may_bind with (Q := fun w => length w = length (items v)).
    + generalize (items v). intros w. generalize (length w) at 1. generalize (leading_zeroes (eL E) (x :: l)). intros lz oi. revert w lz oi. generalize (x :: l).
      induction l0 as [|y l0 IH]; intros w lz oi; cbn [ctor_loop]; [apply may_ret; reflexivity|]. destruct lz; [|apply IH].
      destruct oi; [apply may_undef|]. eapply may_bind; [apply length_vset|]. intros w' Hw'; cbv beta in Hw'. eapply may_mono; [apply IH|]. cbv beta. intros. congruence.
    + intros w Hw; cbv beta in Hw. apply may_ret. unfold roomy_obj, roomy in *. cbn [ovec items room]. lia.
  - apply roomy_assigned; [exact Hs|]. unfold ccopy_assign, coperand. destruct (t =? r)%nat; [apply may_ret, Hs|].
    eapply may_bind; [apply may_attempt, roomy_assign|]. intros [v|e] Hv; apply may_ret; [exact Hv|apply (Hs r)].
  - destruct (t =? r)%nat; apply may_ret; repeat apply roomy_upd; auto; unfold roomy_obj; cbn [ovec]; try (unfold roomy; cbn; lia).
    all: try (destruct (eKeep E); [apply (Hs r)|unfold roomy; cbn; lia]). all: try apply (Hs t).
  - apply roomy_assigned; [exact Hs|]. apply roomy_compound, Hs.
  - apply roomy_store; [exact Hs|]. unfold cbinary. eapply may_bind with (Q := roomy_obj).
    + unfold ccopied. eapply may_bind; [apply roomy_copy|]. intros v Hv; cbv beta in Hv. apply may_ret. exact Hv.
    + intros x Hx; cbv beta in Hx. eapply may_bind; [apply roomy_compound, Hx|]. intros a Ha. destruct (snd a); [apply may_throw|apply may_ret, Ha].
  - apply may_ret, roomy_upd; auto. destruct d; cbn [cset_desc]; unfold roomy_obj; cbn [ovec]; try apply (Hs r); apply roomy_empty.
  - apply may_ret, roomy_upd; auto. apply roomy_empty.
  - apply roomy_store; [exact Hs|]. apply roomy_growing, roomy_resize, (Hs r).
  - apply roomy_store; [exact Hs|]. apply roomy_growing, roomy_push, (Hs r).
  - apply roomy_store; [exact Hs|]. apply roomy_growing, roomy_insert, (Hs r).
  - apply roomy_store; [exact Hs|]. apply roomy_growing, roomy_insert, (Hs r).
  - apply roomy_store; [exact Hs|]. apply roomy_in_place; [apply Hs|]. unfold vpop. destruct (items _) as [|x l]; [apply may_undef|]. apply may_ret.
    rewrite removelast_firstn_len, firstn_length. lia.
  - apply roomy_store; [exact Hs|]. apply (roomy_in_place (s r) (fun l => verase l 0)); [apply Hs|apply Her].
  - apply roomy_store; [exact Hs|]. apply (roomy_in_place (s r) (fun l => verase l pos)); [apply Hs|apply Her].
  - apply roomy_store; [exact Hs|]. apply roomy_in_place; [apply Hs|]. eapply may_bind; [apply may_any|]. intros _ _.
    eapply may_mono; [apply length_vset|]. cbv beta. intros. lia.
Qed.

Lemma roomy_run h E : forall fuel p s, all_roomy s -> may (crun_caps grow h E fuel p s) all_roomy.
Proof.
  induction fuel as [|f IH]; intros p s Hs; [apply may_nofuel|]. destruct p as [i|a b|c x y a b|c x y a]; cbn [crun_caps].
  - apply roomy_step, Hs.
  - eapply may_bind; [apply IH, Hs|]. intros t Ht; cbv beta in Ht. apply IH, Ht.
  - eapply may_bind; [apply may_any|]. intros t _. destruct t; apply IH, Hs.
  - eapply may_bind; [apply may_any|]. intros t _. destruct t; [|apply may_ret, Hs]. eapply may_bind; [apply IH, Hs|]. intros t Ht; cbv beta in Ht. apply IH, Ht.
Qed.

(** ** The number of requests of sums *)

Context (HD : doubling grow).

Definition pot (r : nat) : nat := match r with O => 1%nat | S _ => (2 * r)%nat end.
Lemma pot_mono a b : (a <= b)%nat -> (pot a <= pot b)%nat.
Proof. destruct a, b; cbn [pot]; lia. Qed.

(** from [v] at request [n] to [v'] at request [n'] *)
Definition grown (v : vec) (n : nat) (v' : vec) (n' : nat) : Prop :=
  roomy v' /\ (length (items v) <= length (items v'))%nat /\ (n <= n')%nat /\ (2 ^ (n' - n) * pot (room v) <= pot (room v'))%nat /\
  (n' = n /\ room v' = room v \/
   (n < n')%nat /\ (room v < length (items v'))%nat /\ (2 ^ (n' - n - 1) * pot (room v) <= pot (length (items v') - 1))%nat).

Lemma grown_refl v n w : roomy v -> length w = length (items v) -> grown v n (mkVec w (room v)) n.
Proof.
  unfold grown, roomy. cbn [items room]. intros H E. rewrite E, Nat.sub_diag. cbn [Nat.pow]. repeat split; try lia.
Qed.

Lemma grown_trans v n v1 n1 v2 n2 : grown v n v1 n1 -> grown v1 n1 v2 n2 -> grown v n v2 n2.
Proof.
  intros (R1 & L1 & N1 & P1 & C1) (R2 & L2 & N2 & P2 & C2). split; [exact R2|]. split; [lia|]. split; [lia|].
  assert (2 ^ (n2 - n) = 2 ^ (n2 - n1) * 2 ^ (n1 - n))%nat as E by (rewrite <- Nat.pow_add_r; f_equal; lia).
  split; [rewrite E; nia|]. destruct C2 as [[-> Er]|(Hn & Hr & Hp)].
  - destruct C1 as [[-> Er1]|(Hn1 & Hr1 & Hp1)]; [left; split; congruence|right]. split; [exact Hn1|]. split; [lia|].
    eapply Nat.le_trans; [exact Hp1|]. apply pot_mono. lia.
  - right. split; [lia|]. split.
    + destruct C1 as [[-> Er1]|(Hn1 & Hr1 & Hp1)]; [congruence|lia].
    + assert (2 ^ (n2 - n - 1) = 2 ^ (n2 - n1 - 1) * 2 ^ (n1 - n))%nat as E' by (rewrite <- Nat.pow_add_r; f_equal; lia).
      rewrite E'. nia.
Qed.

Lemma grown_push v d al n w n' : roomy v -> cpush grow v d al n = Ret w n' -> grown v n w n' /\ length (items w) = S (length (items v)).
Proof.
  intros H E. unfold cpush in E. destruct (Nat.ltb_spec (length (items v)) (room v)) as [Hl|Hl].
  - injection E as <- <-. cbn [items]. rewrite app_length. cbn [length]. split; [|lia]. unfold grown, roomy in *. cbn [items room].
    rewrite app_length, Nat.sub_diag. cbn [length Nat.pow]. repeat split; try lia.
  - unfold bind, alloc, ret in E. destruct (al n); [|discriminate]. injection E as <- <-. cbn [items]. rewrite app_length. cbn [length].
    split; [|lia]. unfold grown, roomy in *. cbn [items room]. rewrite app_length. cbn [length].
    assert (room v = length (items v)) as -> by lia. set (k := length (items v)) in *.
    pose proof (HG k 1%nat) as G. pose proof (HD k) as D. replace (S n - n)%nat with 1%nat by lia. replace (k + 1 - 1)%nat with k by lia.
    cbn [Nat.pow Nat.sub]. repeat split; try lia.
    + destruct (grow k 1%nat) as [|g] eqn:Eg; [lia|]. destruct k as [|k']; unfold pot; lia.
Qed.

Lemma grown_add_loop L inv : forall fuel out oi ii rem al n v n', roomy out ->
  cadd_loop grow L inv fuel out oi ii rem al n = Ret (v, None) n' -> grown out n v n'.
Proof.
  induction fuel as [|f IH]; intros out oi ii rem al n v n' H E; cbn [cadd_loop] in E; [discriminate|]. unfold bind at 1 in E.
  destruct ((if (oi =? length (items out))%nat then attempt (cpush grow out 0) else ret (inl out)) al n) as [[v1|e] n1|e n1|u|] eqn:E1; try discriminate.
  assert (grown out n v1 n1) as G1.
  { destruct (oi =? length (items out))%nat.
    - unfold attempt in E1. destruct (cpush grow out 0 al n) as [w m|w m|w|] eqn:Ep; try discriminate. injection E1 as <- <-.
      apply (grown_push out 0 al n w m H Ep).
    - injection E1 as <- <-. destruct out as [o r]. apply (grown_refl (mkVec o r) n o H eq_refl). }
  unfold bind at 1 in E.
  destruct ((if (ii <? length (inv (items v1)))%nat then vget (inv (items v1)) ii else ret 0) al n1) as [d n2|? ?|?|] eqn:E2; try discriminate.
  assert (n2 = n1) as ->.
  { destruct (_ <? _)%nat; [|injection E2 as _ <-; reflexivity]. unfold vget in E2. destruct (nth_error _ _); [injection E2 as _ <-; reflexivity|discriminate]. }
  unfold bind at 1 in E. destruct (vget (items v1) oi al n1) as [o n3|? ?|?|] eqn:E3; try discriminate.
  assert (n3 = n1) as -> by (unfold vget in E3; destruct (nth_error _ _); [injection E3 as _ <-; reflexivity|discriminate]).
  cbv zeta in E. unfold bind at 1 in E.
  match type of E with context [match ?m al n1 with _ => _ end] => destruct (m al n1) as [dr n4|? ?|?|] eqn:E4; try discriminate end.
  assert (n4 = n1) as ->.
  { destruct (bmax L <? _); [|injection E4 as _ <-; reflexivity]. destruct (_ =? 0); [discriminate|injection E4 as _ <-; reflexivity]. }
  unfold bind at 1 in E. destruct (vset (items v1) oi (fst dr) al n1) as [w n5|? ?|?|] eqn:E5; try discriminate.
  pose proof (length_vset (items v1) oi (fst dr) al n1) as Lw. rewrite E5 in Lw.
  assert (n5 = n1) as -> by (unfold vset in E5; destruct (_ <? _)%nat; [injection E5 as _ <-; reflexivity|discriminate]).
  pose proof (grown_refl v1 n1 w (proj1 G1) Lw) as G2. pose proof (grown_trans _ _ _ _ _ _ G1 G2) as G3.
  destruct (_ && _ && _).
  - injection E as <- <-. exact G3.
  - apply (grown_trans _ _ _ _ _ _ G3). eapply IH; [exact (proj1 G3)|exact E].
Qed.

Lemma grown_bound v n v' n' : grown v n v' n' -> n' = n \/ (2 ^ (n' - n) <= 4 * length (items v'))%nat.
Proof.
  intros (_ & _ & _ & _ & [[H _]|(Hn & Hr & Hp)]); [left; exact H|right].
  assert (1 <= pot (room v))%nat by (unfold pot; destruct (room v); lia).
  replace (n' - n)%nat with (S (n' - n - 1)) by lia. cbn [Nat.pow]. set (q := (2 ^ (n' - n - 1))%nat) in *.
  assert (pot (length (items v') - 1) <= 2 * length (items v'))%nat by (unfold pot; destruct (length (items v') - 1)%nat eqn:E; lia).
  nia.
Qed.

End Growth.

(** ** A sum that is computed had all its requests granted *)

Definition all_true (al : nat -> bool) (n n' : nat) : Prop := forall k, (n <= k < n')%nat -> al k = true.

Lemma push_granted grow v d al n w n' : cpush grow v d al n = Ret w n' -> (n <= n')%nat /\ all_true al n n'.
Proof.
  unfold cpush. destruct (_ <? _)%nat; intros E; [injection E as _ <-; split; [lia|intros k Hk; lia]|].
  unfold bind, alloc, ret in E. destruct (al n) eqn:Ea; [|discriminate]. injection E as _ <-. split; [lia|]. intros k Hk. replace k with n by lia. exact Ea.
Qed.

Lemma add_granted grow L inv : forall fuel out oi ii rem al n v n', cadd_loop grow L inv fuel out oi ii rem al n = Ret (v, None) n' ->
  (n <= n')%nat /\ all_true al n n'.
Proof.
  induction fuel as [|f IH]; intros out oi ii rem al n v n' E; cbn [cadd_loop] in E; [discriminate|]. unfold bind at 1 in E.
  destruct ((if (oi =? length (items out))%nat then attempt (cpush grow out 0) else ret (inl out)) al n) as [[v1|e] n1|e n1|u|] eqn:E1; try discriminate.
  assert ((n <= n1)%nat /\ all_true al n n1) as [G1 G2].
  { destruct (oi =? length (items out))%nat.
    - unfold attempt in E1. destruct (cpush grow out 0 al n) as [w m|w m|w|] eqn:Ep; try discriminate. injection E1 as <- <-. exact (push_granted _ _ _ _ _ _ _ Ep).
    - injection E1 as <- <-. split; [lia|intros k Hk; lia]. }
  unfold bind at 1 in E.
  destruct ((if (ii <? length (inv (items v1)))%nat then vget (inv (items v1)) ii else ret 0) al n1) as [d n2|? ?|?|] eqn:E2; try discriminate.
  assert (n2 = n1) as ->.
  { destruct (_ <? _)%nat; [|injection E2 as _ <-; reflexivity]. unfold vget in E2. destruct (nth_error _ _); [injection E2 as _ <-; reflexivity|discriminate]. }
  unfold bind at 1 in E. destruct (vget (items v1) oi al n1) as [o n3|? ?|?|] eqn:E3; try discriminate.
  assert (n3 = n1) as -> by (unfold vget in E3; destruct (nth_error _ _); [injection E3 as _ <-; reflexivity|discriminate]).
  cbv zeta in E. unfold bind at 1 in E.
  match type of E with context [match ?m al n1 with _ => _ end] => destruct (m al n1) as [dr n4|? ?|?|] eqn:E4; try discriminate end.
  assert (n4 = n1) as ->.
  { destruct (bmax L <? _); [|injection E4 as _ <-; reflexivity]. destruct (_ =? 0); [discriminate|injection E4 as _ <-; reflexivity]. }
  unfold bind at 1 in E. destruct (vset (items v1) oi (fst dr) al n1) as [w n5|? ?|?|] eqn:E5; try discriminate.
  assert (n5 = n1) as -> by (unfold vset in E5; destruct (_ <? _)%nat; [injection E5 as _ <-; reflexivity|discriminate]).
  destruct (_ && _ && _).
  - injection E as <- <-. auto.
  - destruct (IH _ _ _ _ _ _ _ _ E) as [H1 H2]. split; [lia|]. intros k Hk. destruct (Nat.lt_ge_cases k n1); [apply G2|apply H2]; lia.
Qed.

(** ** What asks for nothing does not depend on the allocator *)

Definition frugal {A} (m : M A) : Prop := forall al n, after (m al n) n /\ forall al' a, m al n = Ret a n -> m al' n = Ret a n.

Lemma frugal_ret {A} (a : A) : frugal (ret a).
Proof. intros al n. split; [cbn; lia|]. intros al' b H. exact H. Qed.
Lemma frugal_silent {A} (m : M A) : silent m -> frugal m.
Proof. intros [r H] al n. rewrite H. split; [destruct r; cbn; auto|]. intros al' a E. rewrite H. exact E. Qed.
Lemma frugal_bind {A B} (m : M A) (k : A -> M B) : frugal m -> (forall a, frugal (k a)) -> frugal (bind m k).
Proof.
  intros Hm Hk al n. destruct (Hm al n) as [Wm Fm]. unfold bind. destruct (m al n) as [a n1|e n1|u|] eqn:E; cbn [after] in Wm.
  - destruct (Hk a al n1) as [Wk Fk]. split; [destruct (k a al n1); cbn [after] in *; auto; lia|].
    intros al' b Eb. rewrite Eb in Wk. cbn [after] in Wk. assert (n1 = n) as -> by lia. rewrite (Fm al' a eq_refl). apply Fk. exact Eb.
  - split; [exact Wm|discriminate].
  - split; [exact I|discriminate].
  - split; [exact I|discriminate].
Qed.
Lemma frugal_alloc : frugal alloc.
Proof. intros al n. unfold alloc. destruct (al n); (split; [cbn; lia|]); intros al' a H; [injection H as _ H; lia|discriminate]. Qed.
Lemma frugal_push grow v d : frugal (cpush grow v d).
Proof. unfold cpush. destruct (_ <? _)%nat; [apply frugal_ret|]. apply frugal_bind; [apply frugal_alloc|]. intros. apply frugal_ret. Qed.
Lemma frugal_attempt_push grow v d : frugal (attempt (cpush grow v d)).
Proof.
  intros al n. unfold attempt, cpush. destruct (_ <? _)%nat; [split; [cbn; lia|]; intros al' a E; exact E|].
  unfold bind, alloc, ret. destruct (al n); (split; [cbn; lia|]); intros al' a E; injection E as _ E; lia.
Qed.
Lemma frugal_add_loop grow L inv : forall fuel out oi ii rem, frugal (cadd_loop grow L inv fuel out oi ii rem).
Proof.
  induction fuel as [|f IH]; intros; cbn [cadd_loop]; [apply frugal_silent, silent_nofuel|]. apply frugal_bind.
  - destruct (_ =? _)%nat; [apply frugal_attempt_push|apply frugal_ret].
  - intros [v|e]; [|apply frugal_ret]. apply frugal_bind; [apply frugal_silent; silence|]. intros d. apply frugal_bind; [apply frugal_silent; silence|].
    intros o. cbv zeta. apply frugal_bind; [apply frugal_silent; silence|]. intros dr. apply frugal_bind; [apply frugal_silent; silence|]. intros w.
    destruct (_ && _ && _); [apply frugal_ret|apply IH].
Qed.
