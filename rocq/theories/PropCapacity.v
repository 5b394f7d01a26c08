(** * C79, C80: capacities of vectors *)
From Verif Require Import Base Spec Limits Compare AddSub Division Fourier Multiplication Bignum Machine While Strict MulMemory Capacity.
From Verif Require Import Wp Outcome ValueProof AddSubProof RequestProof CapacityProof GrowthProof PropAddSub.
From Verif Require Import Ieee IeeeProof HistoryProof PropMul PropHistory PropProgram EuclidProof PropLoop PropMemory.

(** ** Specification *)

(** two computations end the same way: same exception, same undefined behaviour, or results related by [R] *)
Definition ends_like {A B} (R : A -> B -> Prop) (r : res A) (r' : res B) : Prop :=
  match r, r' with
  | Ret a _, Ret b _ => R a b
  | Throw e _, Throw e' _ => e = e'
  | Undef u, Undef u' => u = u'
  | NoFuel, NoFuel => True
  | _, _ => False
  end.

(** a request from [n] on, made before the end if there is one, was refused *)
Definition refused_in {A} (al : nat -> bool) (n : nat) (r : res A) : Prop :=
  exists k, (n <= k)%nat /\ match r with Ret _ n' | Throw _ n' => (k < n')%nat | _ => True end /\ al k = false.

(** what can be seen of an object *)
Definition seen (x : obj) (y : bignum) : Prop := y = mkBN (odesc x) (items (ovec x)).
Definition seen_arg (this : obj) (y : carg) (z : arg) : Prop :=
  match y, z with COther x, Other w => seen x w | CSelf, Self => True | _, _ => False end.

(** the size of the vector is at most its capacity *)
Definition holds (x : obj) : Prop := (length (items (ovec x)) <= room (ovec x))%nat.

(** what a standard library may choose: enough room for the elements; and at least twice the size for a push_back *)
Definition sufficient (grow : nat -> nat -> nat) : Prop := forall s k, (s + k <= grow s k)%nat.
Definition geometric (grow : nat -> nat -> nat) : Prop := forall s, (2 * s <= grow s 1%nat)%nat.

(** [for (y : ys) x += y;] stopping at the first exception, and [for (y : ys) x = x + y;] *)
Fixpoint accumulate (grow : nat -> nat -> nat) (L : limits) (dbg : bool) (x : obj) (ys : list obj) : M cassigned :=
  match ys with
  | [] => ret (x, None)
  | y :: ys => r <- cadd_assign grow L dbg x (COther y) ;;
               match snd r with None => accumulate grow L dbg (fst r) ys | Some e => ret (fst r, Some e) end
  end.
Fixpoint accumulate_copies (grow : nat -> nat -> nat) (L : limits) (dbg : bool) (x : obj) (ys : list obj) : M obj :=
  match ys with
  | [] => ret x
  | y :: ys => z <- cbinary (cadd_assign grow L dbg) x y ;; accumulate_copies grow L dbg z ys
  end.

Definition sum (B : Z) (ys : list obj) : Z := fold_right (fun y s => signed_value B (bare y) + s) 0 ys.

(** ** Proofs *)

Lemma cover_alloc {A B} (R : A -> B -> Prop) mc m al n : covers R mc m ->
  exists al', like R (mc al n) (m al' 0%nat) /\ after (mc al n) n /\
    ((forall k, al' k = true) \/ (exists k, al' k = false) /\ refused_in al n (mc al n)).
Proof.
  intros H. destruct (H al n) as (l & r & H1 & L1 & U & F). exists (fun i => nth i l true).
  rewrite (H1 (fun i => nth i l true) 0%nat).
  2:{ intros i b E. cbn. apply nth_error_nth. exact E. }
  split; [destruct (mc al n), r; exact L1|]. split; [exact U|].
  destruct (in_dec Bool.bool_dec false l) as [Hi|Hi].
  - right. split; [|exact (F Hi)]. destruct (In_nth l false true Hi) as (k & _ & E). exists k. exact E.
  - left. intros k. destruct (nth_in_or_default k l true) as [Hk|Hk]; [|exact Hk]. destruct (nth k l true); [reflexivity|contradiction].
Qed.

Lemma not_refused A al n (r : res A) : (forall k, al k = true) -> refused_in al n r -> False.
Proof. intros H (k & _ & _ & E). rewrite H in E. discriminate. Qed.

Lemma refused_ret {A} al n (a : A) n' : refused_in al n (Ret a n') -> refused al n n'.
Proof. intros (k & H1 & H2 & H3). exists k. auto. Qed.
Lemma refused_throw {A} al n e n' : refused_in al n (Throw e n' : res A) -> refused al n n'.
Proof. intros (k & H1 & H2 & H3). exists k. auto. Qed.
Lemma all_granted al n n' : (forall k, al k = true) -> refused al n n' -> False.
Proof. intros H (k & _ & E). rewrite H in E. discriminate. Qed.

(** ** C79 *)

Theorem C79_programs : forall grow handler E fuel p s al n, exists al',
  let end_ := crun_caps grow handler E fuel p s al n in
  ends_like (fun s' t => forall r, seen (s' r) (t r)) end_
    ((if handler then srun E fuel p (fun r => bare (s r)) else strict_run E fuel p (fun r => bare (s r))) al' 0%nat) /\
  ((forall k, al' k = true) \/ refused_in al n end_).
Proof.
  intros grow h E fuel p s al n. destruct (cover_alloc _ _ _ al n (covers_run grow h E fuel p s)) as (al' & H & _ & K). exists al'. cbv zeta.
  split; [|destruct K as [K|[_ K]]; auto]. change (like (fun s' t => forall r, seen (s' r) (t r)) (crun_caps grow h E fuel p s al n) (run_of h E fuel p (all_bare s) al' 0%nat)).
  destruct (crun_caps grow h E fuel p s al n), (run_of h E fuel p (all_bare s) al' 0%nat); cbn [like] in *; auto.
  intros r. unfold bare_regs in H. subst. reflexivity.
Qed.
Print Assumptions C79_programs.

(** every theorem about all executions of a program without handlers carries over *)
Theorem C79_returns : forall grow E fuel p s Q,
  returns (strict_run E fuel p (fun r => bare (s r))) Q ->
  forall al n, match crun_caps grow false E fuel p s al n with
               | Ret s' n' => (exists t, Q t /\ forall r, seen (s' r) (t r)) /\ (n <= n')%nat
               | Throw e n' => (e = ExStd \/ e = ExBadAlloc) /\ refused al n n'
               | Undef _ | NoFuel => False
               end.
Proof.
  intros grow E fuel p s Q H al n. destruct (cover_alloc _ _ _ al n (covers_run grow false E fuel p s)) as (al' & Hl & U & K).
  cbn [run_of] in Hl. specialize (H al' 0%nat). change (fun r => bare (s r)) with (all_bare s) in H.
  destruct (crun_caps grow false E fuel p s al n) as [a n1|e n1|u|], (strict_run E fuel p (all_bare s) al' 0%nat) as [b n2|e2 n2|u2|]; cbn [like after] in *; try contradiction.
  - split; [|exact U]. exists b. split; [apply H|]. intros r. unfold bare_regs in Hl. subst. reflexivity.
  - destruct H as [He Hr]. subst e2. split; [exact He|]. destruct K as [K|[_ K]]; [destruct (all_granted _ _ _ K Hr)|exact (refused_throw _ _ _ _ K)].
Qed.
Print Assumptions C79_returns.

Theorem C79_operators : forall grow E op x y Q bad,
  assigns (compound E op (bare x) (bare_arg y)) Q bad ->
  forall al n, match ccompound grow E op x y al n with
               | Ret (z, None) n' => Q (bare z) /\ (n <= n')%nat
               | Ret (z, Some e) n' => e = ExStd /\ bare z = bad /\ refused al n n'
               | Throw _ _ | Undef _ | NoFuel => False
               end.
Proof.
  intros grow E op x y Q bad H al n. destruct (cover_alloc _ _ _ al n (covers_compound grow E op x y)) as (al' & Hl & U & K).
  specialize (H al' 0%nat).
  destruct (ccompound grow E op x y al n) as [[a e] n1|e n1|u|], (compound E op (bare x) (bare_arg y) al' 0%nat) as [[b e2] n2|e2 n2|u2|]; cbn [like after] in *; try contradiction.
  unfold bare_assigned in Hl. cbn [fst snd] in Hl. destruct Hl as [<- <-]. destruct e as [e|].
  - destruct H as (He & Hb & Hr). split; [exact He|]. split; [exact Hb|].
    destruct K as [K|[_ K]]; [destruct (all_granted _ _ _ K Hr)|exact (refused_ret _ _ _ _ K)].
  - split; [apply H|exact U].
Qed.
Print Assumptions C79_operators.

(** the same for the binary operators *)
Theorem C79_binary : forall grow E op x y Q,
  returns (binary (compound E op) (bare x) (bare y)) Q ->
  forall al n, match cbinary (ccompound grow E op) x y al n with
               | Ret z n' => Q (bare z) /\ (n <= n')%nat
               | Throw e n' => (e = ExStd \/ e = ExBadAlloc) /\ refused al n n'
               | Undef _ | NoFuel => False
               end.
Proof.
  intros grow E op x y Q H al n. destruct (cover_alloc _ _ _ al n (covers_binary grow E op x y)) as (al' & Hl & U & K).
  specialize (H al' 0%nat).
  destruct (cbinary (ccompound grow E op) x y al n) as [a n1|e n1|u|], (binary (compound E op) (bare x) (bare y) al' 0%nat) as [b n2|e2 n2|u2|]; cbn [like after] in *; try contradiction.
  - unfold is_bare in Hl. subst b. split; [apply H|exact U].
  - destruct H as [He Hr]. subst e2. split; [exact He|]. destruct K as [K|[_ K]]; [destruct (all_granted _ _ _ K Hr)|exact (refused_throw _ _ _ _ K)].
Qed.
Print Assumptions C79_binary.

(** in particular structured programs on naturals compute in this model what they compute in the integers *)
Theorem C79_numbers : forall ct cosf sinf L N m p v v', accurate cosf sinf -> In (L, N, m) safe_lengths ->
  can_double L = true -> nat_run (base L) N m p v v' ->
  exists enough : nat, forall grow fuel keep f s, (enough <= fuel)%nat -> (enough <= f)%nat -> stores (base L) (fun r => bare (s r)) v ->
  forall al n, match crun_caps grow false (mkEnv L false (ieee ct cosf sinf) fuel keep) f p s al n with
               | Ret s' n' => stores (base L) (fun r => bare (s' r)) v' /\ (n <= n')%nat
               | Throw e n' => (e = ExStd \/ e = ExBadAlloc) /\ refused al n n'
               | Undef _ | NoFuel => False
               end.
Proof.
  intros ct cosf sinf L N m p v v' HA Hin HD Hp. destruct (C66_structured_programs ct cosf sinf L N m p v v' HA Hin HD Hp) as (enough & K).
  exists enough. intros grow fuel keep f s H1 H2 Hs al n.
  pose proof (C79_returns grow _ f p s _ (K fuel keep f (fun r => bare (s r)) H1 H2 Hs) al n) as H.
  destruct (crun_caps grow false _ f p s al n); auto. destruct H as [(t & Ht & Hst) Hn]. split; [|exact Hn].
  intros r. specialize (Ht r). unfold stores_at in *. rewrite (Hst r) in Ht. exact Ht.
Qed.
Print Assumptions C79_numbers.

(** no program makes a vector larger than its capacity *)
Theorem C79_capacity : forall grow handler E fuel p s al n, sufficient grow ->
  (forall r, holds (s r)) ->
  match crun_caps grow handler E fuel p s al n with Ret s' _ => forall r, holds (s' r) | _ => True end.
Proof.
  intros grow h E fuel p s al n HG Hs. pose proof (roomy_run grow HG h E fuel p s Hs al n) as H.
  destruct (crun_caps grow h E fuel p s al n); auto.
Qed.
Print Assumptions C79_capacity.

(** ** C80 *)

Lemma add_same_desc L dbg x y : isComputable (desc x) = true -> desc x = desc y ->
  op_add_assign L dbg x (Other y) = op_add_assign L false x (Other y).
Proof. intros H E. unfold op_add_assign. cbn [adesc]. rewrite <- E. destruct (desc x); cbn in *; try discriminate; reflexivity. Qed.
Lemma cadd_same_desc grow L dbg x y : isComputable (odesc x) = true -> odesc x = odesc y ->
  cadd_assign grow L dbg x (COther y) = csummed grow L x (COther y).
Proof. intros H E. unfold cadd_assign. cbn [cdesc]. rewrite <- E. destruct (odesc x); cbn in *; try discriminate; reflexivity. Qed.

Lemma good_computable B x : good B x -> isComputable (desc x) = true.
Proof. intros [[H|H] _]; rewrite H; reflexivity. Qed.

Lemma sum_step grow L dbg x y : limits_ok L = true -> good (base L) (bare x) -> good (base L) (bare y) -> odesc x = odesc y ->
  forall al n, match cadd_assign grow L dbg x (COther y) al n with
               | Ret (z, None) n' => (good (base L) (bare z) /\ signed_value (base L) (bare z) = signed_value (base L) (bare x) + signed_value (base L) (bare y)) /\
                                     odesc z = odesc x /\ (n <= n')%nat
               | Ret (z, Some e) n' => e = ExStd /\ bare z = infinity_for (odesc x) /\ refused al n n'
               | Throw _ _ | Undef _ | NoFuel => False
               end.
Proof.
  intros HL Gx Gy Hd al n. pose proof (good_computable _ _ Gx) as Cx. cbn [bare desc] in Cx.
  pose proof (C01_add_assign L (bare x) (bare y) HL Gx Gy (or_introl Hd)) as H. rewrite <- (add_same_desc L dbg) in H by assumption.
  destruct (cover_alloc _ _ _ al n (covers_add_assign grow L dbg x (COther y))) as (al' & Hl & U & K). cbn [bare_arg] in Hl. specialize (H al' 0%nat).
  assert (match cadd_assign grow L dbg x (COther y) al n with Ret (z, None) _ => odesc z = odesc x | _ => True end) as Hdz.
  { rewrite cadd_same_desc by assumption. unfold csummed, bind. destruct (cadd grow L (ovec x) (cview (COther y)) al n) as [[v [e|]] n1|e n1|u|]; auto.
    - destruct e; exact I.
    - reflexivity. }
  destruct (cadd_assign grow L dbg x (COther y) al n) as [[a e] n1|e n1|u|], (op_add_assign L dbg (bare x) (Other (bare y)) al' 0%nat) as [[b e2] n2|e2 n2|u2|]; cbn [like after] in *; try contradiction.
  unfold bare_assigned in Hl. cbn [fst snd] in Hl. destruct Hl as [<- <-]. destruct e as [e|].
  - destruct H as (He & Hb & Hr). split; [exact He|]. rewrite Hd. split; [exact Hb|].
    destruct K as [K|[_ K]]; [destruct (all_granted _ _ _ K Hr)|exact (refused_ret _ _ _ _ K)].
  - split; [apply H|]. split; [exact Hdz|exact U].
Qed.

Lemma sum_grown grow L dbg x y al n z n' : sufficient grow -> geometric grow -> isComputable (odesc x) = true -> odesc x = odesc y -> holds x ->
  cadd_assign grow L dbg x (COther y) al n = Ret (z, None) n' -> grown (ovec x) n (ovec z) n'.
Proof.
  intros HG HD Cx Hd Hx E. rewrite cadd_same_desc in E by assumption. unfold csummed, bind in E.
  destruct (cadd grow L (ovec x) (cview (COther y)) al n) as [[v [e|]] n1|e n1|u|] eqn:Ea; try discriminate; [destruct e; discriminate|].
  injection E as <- <-. cbn [ovec fst]. unfold cadd in Ea. eapply grown_add_loop; [exact HG|exact HD|exact Hx|exact Ea].
Qed.

Lemma grown_nothing v n : (length (items v) <= room v)%nat -> grown v n v n.
Proof. intros H. destruct v as [l r]. apply (grown_refl (mkVec l r) n l H eq_refl). Qed.

Lemma accumulate_step grow L dbg : limits_ok L = true -> sufficient grow -> geometric grow -> forall ys x, good (base L) (bare x) -> holds x ->
  Forall (fun y => good (base L) (bare y) /\ odesc y = odesc x) ys ->
  forall al n, match accumulate grow L dbg x ys al n with
               | Ret (z, None) n' => good (base L) (bare z) /\ odesc z = odesc x /\ grown (ovec x) n (ovec z) n' /\
                                     signed_value (base L) (bare z) = signed_value (base L) (bare x) + sum (base L) ys
               | Ret (z, Some e) n' => e = ExStd /\ bare z = infinity_for (odesc x) /\ refused al n n'
               | Throw _ _ | Undef _ | NoFuel => False
               end.
Proof.
  intros HL HG HD. induction ys as [|y ys IH]; intros x Gx Hx Hys al n; cbn [accumulate].
  - cbn [ret sum fold_right]. split; [exact Gx|]. split; [reflexivity|]. split; [apply grown_nothing, Hx|lia].
  - inversion Hys as [|? ? [Gy Dy] Hys']; subst. pose proof (sum_step grow L dbg x y HL Gx Gy (eq_sym Dy) al n) as H. unfold bind.
    destruct (cadd_assign grow L dbg x (COther y) al n) as [[z [e|]] n1|e n1|u|] eqn:E; try contradiction; cbn [snd fst ret]; [exact H|].
    destruct H as ((Gz & Vz) & Dz & Hn). pose proof (sum_grown grow L dbg x y al n z n1 HG HD (good_computable _ _ Gx) (eq_sym Dy) Hx E) as G.
    assert (Forall (fun y => good (base L) (bare y) /\ odesc y = odesc z) ys) as Hz by (rewrite Dz; exact Hys').
    specialize (IH z Gz (proj1 G) Hz al n1). destruct (accumulate grow L dbg z ys al n1) as [[w [e|]] n2|e n2|u|]; try contradiction.
    + destruct IH as (He & Hb & (k & Hk & Hf)). split; [exact He|]. split; [rewrite <- Dz; exact Hb|]. exists k. split; [lia|exact Hf].
    + destruct IH as (Gw & Dw & Gr & Vw). split; [exact Gw|]. split; [congruence|]. split; [exact (grown_trans _ _ _ _ _ _ G Gr)|].
      cbn [sum fold_right]. fold (sum (base L) ys). lia.
Qed.

(** any number of additions with += asks for memory at most about log2 (digits of the result) times *)
Theorem C80_accumulate : forall grow L dbg x ys al n, limits_ok L = true -> sufficient grow -> geometric grow ->
  good (base L) (bare x) -> holds x -> Forall (fun y => good (base L) (bare y) /\ odesc y = odesc x) ys ->
  match accumulate grow L dbg x ys al n with
  | Ret (z, None) n' =>
      good (base L) (bare z) /\ signed_value (base L) (bare z) = signed_value (base L) (bare x) + sum (base L) ys /\ (n <= n')%nat /\
      (n' = n \/ (2 ^ (n' - n) <= 4 * length (items (ovec z)))%nat) /\
      ((length (items (ovec z)) <= room (ovec x))%nat -> n' = n)
  | Ret (z, Some e) n' => e = ExStd /\ bare z = infinity_for (odesc x) /\ refused al n n'
  | Throw _ _ | Undef _ | NoFuel => False
  end.
Proof.
  intros grow L dbg x ys al n HL HG HD Gx Hx Hys. pose proof (accumulate_step grow L dbg HL HG HD ys x Gx Hx Hys al n) as H.
  destruct (accumulate grow L dbg x ys al n) as [[z [e|]] n'|e n'|u|]; auto. destruct H as (Gz & Dz & Gr & Vz).
  split; [exact Gz|]. split; [exact Vz|]. split; [apply Gr|]. split; [exact (grown_bound _ _ _ _ Gr)|].
  destruct Gr as (_ & _ & _ & _ & [[E _]|(_ & Hr & _)]); intros; [exact E|lia].
Qed.
Print Assumptions C80_accumulate.

(** [x = x + y] asks at least once every time *)
Theorem C80_copies : forall grow L dbg x ys al n z n', limits_ok L = true -> sufficient grow -> geometric grow ->
  good (base L) (bare x) -> items (ovec x) <> [] -> Forall (fun y => good (base L) (bare y) /\ odesc y = odesc x) ys ->
  accumulate_copies grow L dbg x ys al n = Ret z n' -> (n + length ys <= n')%nat.
Proof.
  intros grow L dbg x ys. revert x. induction ys as [|y ys IH]; intros x al n z n' HL HG HD Gx Nx Hys E; cbn [accumulate_copies length] in *.
  - injection E as _ <-. lia.
  - inversion Hys as [|? ? [Gy Dy] Hys']; subst. unfold bind at 1 in E.
    destruct (cbinary (cadd_assign grow L dbg) x y al n) as [w n1|? ?|?|] eqn:Eb; try discriminate.
    unfold cbinary, ccopied, ccopy, bind in Eb. destruct (obtain (length (items (ovec x))) al n) as [u n2|? ?|?|] eqn:Eo; try discriminate. cbn [ret] in Eb.
    set (x' := mkObj (odesc x) (mkVec (items (ovec x)) (length (items (ovec x))))) in *.
    assert (n < n2)%nat as Hn2.
    { unfold obtain in Eo. destruct (items (ovec x)); [contradiction|]. cbn [length] in Eo. change (alloc al n = Ret u n2) in Eo. unfold alloc in Eo. destruct (al n); [|discriminate].
      assert (n2 = S n) by congruence. lia. }
    pose proof (sum_step grow L dbg x' y HL Gx Gy (eq_sym Dy) al n2) as H.
    destruct (cadd_assign grow L dbg x' (COther y) al n2) as [[v [e|]] n3|e n3|u'|] eqn:E3; try discriminate; cbn [snd fst ret] in Eb; try discriminate.
    injection Eb as <- <-. destruct H as ((Gv & _) & Dv & Hn3).
    pose proof (sum_grown grow L dbg x' y al n2 v n3 HG HD (good_computable _ _ Gx) (eq_sym Dy) (le_n _) E3) as (_ & Lv & _).
    assert (items (ovec v) <> []) as Nv.
    { intros Ev. rewrite Ev in Lv. cbn [x' ovec items] in Lv. destruct (items (ovec x)); [contradiction|cbn in Lv; lia]. }
    assert (Forall (fun y => good (base L) (bare y) /\ odesc y = odesc v) ys) as Hv by (rewrite Dv; exact Hys').
    specialize (IH v al n3 z n' HL HG HD Gv Nv Hv E). lia.
Qed.
Print Assumptions C80_copies.

(** an addition whose result fits in the capacity cannot fail *)
Theorem C80_fits : forall grow L dbg x y, limits_ok L = true -> sufficient grow -> geometric grow ->
  good (base L) (bare x) -> good (base L) (bare y) -> odesc x = odesc y -> holds x -> (1 <= room (ovec x))%nat ->
  Z.abs (signed_value (base L) (bare x) + signed_value (base L) (bare y)) < base L ^ Z.of_nat (room (ovec x)) ->
  forall al n, exists z, cadd_assign grow L dbg x (COther y) al n = Ret (z, None) n /\
    good (base L) (bare z) /\ signed_value (base L) (bare z) = signed_value (base L) (bare x) + signed_value (base L) (bare y).
Proof.
  intros grow L dbg x y HL HG HD Gx Gy Hd Hx H1 Hf.
  assert (frugal (cadd_assign grow L dbg x (COther y))) as Hfr.
  { rewrite cadd_same_desc by (auto; exact (good_computable _ _ Gx)). unfold csummed. apply frugal_bind; [apply frugal_add_loop|].
    intros [v [e|]]; cbn [snd]; [destruct e|]; try apply frugal_ret. apply frugal_silent, silent_throw. }
  assert (forall n, exists z, cadd_assign grow L dbg x (COther y) (fun _ => true) n = Ret (z, None) n /\
    good (base L) (bare z) /\ signed_value (base L) (bare z) = signed_value (base L) (bare x) + signed_value (base L) (bare y)) as Hall.
  { intros n. pose proof (sum_step grow L dbg x y HL Gx Gy Hd (fun _ => true) n) as H.
    destruct (cadd_assign grow L dbg x (COther y) (fun _ => true) n) as [[z [e|]] n1|e n1|u|] eqn:E; try contradiction.
    - destruct H as (_ & _ & Hr). destruct (all_granted _ _ _ (fun _ => eq_refl) Hr).
    - destruct H as ((Gz & Vz) & Dz & Hn).
      pose proof (sum_grown grow L dbg x y _ n z n1 HG HD (good_computable _ _ Gx) Hd Hx E) as (_ & _ & _ & _ & C).
      assert (length (items (ovec z)) <= room (ovec x))%nat as Hlen.
      { destruct Gz as (Fz & Oz & Wz). cbn [bare data] in Oz, Wz. destruct (list_eq_dec Z.eq_dec (items (ovec z)) [0]) as [Ez|Nz]; [rewrite Ez; cbn; lia|].
        apply (fits_length L HL); auto. rewrite <- Vz in Hf. unfold signed_value in Hf. cbn [bare desc data] in Hf. destruct (odesc z); lia. }
      destruct C as [[-> _]|(_ & C & _)]; [|lia]. exists z. auto. }
  intros al n. destruct (Hall n) as (z & En & Gz & Vz). exists z. split; [|auto].
  destruct (Hfr (fun _ => true) n) as [_ Fn]. exact (Fn al _ En).
Qed.
Print Assumptions C80_fits.

(** and one whose result does not fit fails if its first request is refused *)
Theorem C80_beyond : forall grow L dbg x y, limits_ok L = true -> sufficient grow -> geometric grow ->
  good (base L) (bare x) -> good (base L) (bare y) -> odesc x = odesc y -> holds x ->
  base L ^ Z.of_nat (room (ovec x)) <= Z.abs (signed_value (base L) (bare x) + signed_value (base L) (bare y)) ->
  forall al n, al n = false -> exists z n', cadd_assign grow L dbg x (COther y) al n = Ret (z, Some ExStd) n' /\
    bare z = infinity_for (odesc x).
Proof.
  intros grow L dbg x y HL HG HD Gx Gy Hd Hx Hb al n Hal.
  pose proof (sum_step grow L dbg x y HL Gx Gy Hd al n) as H.
  destruct (cadd_assign grow L dbg x (COther y) al n) as [[z [e|]] n1|e n1|u|] eqn:E; try contradiction.
  - destruct H as (-> & Hz & _). exists z, n1. auto.
  - exfalso. destruct H as ((Gz & Vz) & Dz & Hn).
    pose proof (sum_grown grow L dbg x y _ n z n1 HG HD (good_computable _ _ Gx) Hd Hx E) as (Rz & _ & _ & _ & C).
    assert (all_true al n n1) as HA.
    { rewrite cadd_same_desc in E by (auto; exact (good_computable _ _ Gx)). unfold csummed, bind in E.
      destruct (cadd grow L (ovec x) (cview (COther y)) al n) as [[v [e|]] n2|e n2|u|] eqn:Ea; try discriminate; [destruct e; discriminate|].
      injection E as <- <-. exact (proj2 (add_granted _ _ _ _ _ _ _ _ _ _ _ _ Ea)). }
    destruct C as [[-> Er]|(C & _)]; [|rewrite (HA n ltac:(lia)) in Hal; discriminate].
    unfold roomy in Rz. rewrite Er in Rz. destruct Gz as (Fz & Oz & Wz). cbn [bare data] in Oz, Wz.
    pose proof (AddSubProof.HB L HL) as HB. pose proof (value_bounds (base L) HB (items (ovec z)) Oz).
    assert (base L ^ Z.of_nat (length (items (ovec z))) <= base L ^ Z.of_nat (room (ovec x))) by (apply Z.pow_le_mono_r; lia).
    rewrite <- Vz in Hb. unfold signed_value in Hb. cbn [bare desc data] in Hb. destruct (odesc z); lia.
Qed.
Print Assumptions C80_beyond.

(** ** Cases *)

(** what libstdc++ chooses: the larger of twice the size and the size that is needed *)
Definition twice (s k : nat) : nat := Nat.max (2 * s) (s + k).
Example C79_policy : sufficient twice /\ geometric twice.
Proof. split; [intros s k|intros s]; unfold twice; lia. Qed.

Definition small (l : list Z) : obj := mkObj BN_POS (mkVec l (length l)).
Definition granting (_ : nat) : bool := true.
Definition refusing (_ : nat) : bool := false.

(** 0 += 7 six hundred times is 4200: the digits are four, the capacities 1, 2 and 4, and there are three requests *)
Example C80_case :
  good 10 (bare (small [])) /\ holds (small []) /\ Forall (fun y => good 10 (bare y) /\ odesc y = BN_POS) (repeat (small [7]) 600) /\
  accumulate twice base10 false (small []) (repeat (small [7]) 600) granting 0%nat =
    Ret (mkObj BN_POS (mkVec [0; 0; 2; 4] 4), None) 3%nat.
Proof.
  split; [|split; [|split]].
  - split; [left; reflexivity|]. split; [apply Forall_nil|left; unfold canonical; cbn; lia].
  - unfold holds. cbn. lia.
  - apply Forall_forall. intros y Hy. apply repeat_spec in Hy. subst y. split; [|reflexivity].
    split; [left; reflexivity|]. split; [apply Forall_cons; [lia|apply Forall_nil]|left; unfold canonical; cbn; lia].
  - vm_compute. reflexivity.
Qed.

(** the same with [x = x + y] asks more than 600 times *)
Example C80_case_copies :
  match accumulate_copies twice base10 false (small [7]) (repeat (small [7]) 600) granting 0%nat with
  | Ret z n => items (ovec z) = [7; 0; 2; 4] /\ n = 603%nat | _ => False end.
Proof. vm_compute. split; reflexivity. Qed.

(** 993 + 6 fits in three digits and 993 + 7 does not: without memory the first is done, the second leaves infinity *)
Example C80_case_fits :
  cadd_assign twice base10 false (small [3; 9; 9]) (COther (small [6])) refusing 0%nat = Ret (mkObj BN_POS (mkVec [9; 9; 9] 3), None) 0%nat /\
  cadd_assign twice base10 false (small [3; 9; 9]) (COther (small [7])) refusing 0%nat = Ret (mkObj BN_POS_INF (mkVec [] 3), Some ExStd) 1%nat.
Proof. split; vm_compute; reflexivity. Qed.

(** a program: after 12 = 5 + 7 has been computed in place of 345, its copy back into the variable asks for nothing *)
Example C79_case : forall P : flops,
  let E := mkEnv base10 false P 100 false in
  let s := cupd (cupd (cupd (fun _ => small []) 0 (small [5; 4; 3])) 1 (small [5])) 2 (small [7]) in
  match crun_caps twice false E 10 (Seq (Do (IAssign OAdd 1 2)) (Do (ICopy 0 1))) s granting 0%nat with
  | Ret s' n => s' 0%nat = mkObj BN_POS (mkVec [2; 1] 3) /\ s' 1%nat = mkObj BN_POS (mkVec [2; 1] 2) /\ n = 1%nat
  | _ => False end.
Proof. intros P. vm_compute. repeat split. Qed.
