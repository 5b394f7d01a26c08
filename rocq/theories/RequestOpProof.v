(** * Operations that need no memory: the operators *)
From Verif Require Import Base Spec Limits Compare AddSub Division Fourier Multiplication Bignum Machine While Outcome.
From Verif Require Import Wp ValueProof CompareProof AddSubProof DivisionProof BignumProof OperatorProof DivOpProof FailProof MemoryProof.
From Verif Require Import ZeroProof RequestProof PropAddSub PropZero.

(** The operation asks for no memory and completes, leaving a number with property [P]: it cannot fail. *)
Definition never_asks (m : M assigned) (P : bignum -> Prop) : Prop := forall al n, exists z, m al n = Ret (z, None) n /\ P z.

(** Without memory the operation fails. *)
Definition needs_memory (m : M assigned) : Prop := forall al n, (forall k, al k = false) -> exists z n', m al n = Ret (z, Some ExStd) n'.

Definition result (B : Z) (v : Z) (z : bignum) : Prop := good B z /\ signed_value B z = v.

Lemma guarded_ret m bad al n z k : m al n = Ret z k -> guarded m bad al n = Ret (z, None) k.
Proof. intros E. unfold guarded. rewrite E. reflexivity. Qed.
Lemma guarded_fail m bad al n k : m al n = Throw ExBadAlloc k -> guarded m bad al n = Ret (bad, Some ExStd) k.
Proof. intros E. unfold guarded. rewrite E. reflexivity. Qed.

Section Ops.
Context (L : limits) (HL : limits_ok L = true).
Let B := base L.
Let HBk : 2 <= B := AddSubProof.HB L HL.

Lemma diff_in_place x y d1 d2 : digits_ok B x -> digits_ok B y -> canonical x -> canonical y -> x <> [] -> value B y <= value B x ->
  exists r, pure (diff_step L x y d1 d2) (mkBN d1 r) /\ digits_ok B r /\ canonical r /\ value B r = value B x - value B y.
Proof.
  intros Dx Dy Cx Cy Nx Hle.
  assert (length y <= length x)%nat as Hl.
  { destruct (Nat.le_gt_cases (length y) (length x)) as [|G]; auto. pose proof (length_lt_value B HBk x y Dx Dy Cy G). lia. }
  destruct (abs_val_sub_other L HL x y Nx Hl) as (r & Hp & Cr & _ & Hr). destruct (Hr Dx Dy) as [Dr Vr]. fold B in Dr, Vr.
  rewrite (proj2 (Z.leb_le _ _)) in Vr by lia. exists r. split; [|auto]. intros al n. unfold diff_step, bind.
  rewrite (abs_val_is_ge_pure B HBk x y Dx Dy), (geb_canonical B HBk) by auto. rewrite (proj2 (Z.leb_le _ _)) by lia. rewrite Hp. reflexivity.
Qed.

Lemma diff_copies x y d1 d2 al n : digits_ok B x -> digits_ok B y -> canonical x -> canonical y -> value B x < value B y -> al n = false ->
  diff_step L x y d1 d2 al n = Throw ExBadAlloc (S n).
Proof.
  intros Dx Dy Cx Cy Hlt F. unfold diff_step, bind. rewrite (abs_val_is_ge_pure B HBk x y Dx Dy), (geb_canonical B HBk) by auto.
  rewrite (proj2 (Z.leb_gt _ _)) by lia. unfold vcopy, bind, alloc. rewrite F. reflexivity.
Qed.

(** ** x += y and x -= y *)

(** the sign of a difference is the sign of *this, so that a difference in place leaves the descriptor alone *)
Theorem difference_in_place x y : plain B x -> plain B y -> data x <> [] -> value B (data y) <= value B (data x) ->
  (desc x = desc y -> never_asks (op_sub_assign L false x (Other y)) (fun z => result B (signed_value B x - signed_value B y) z /\ desc z = desc x)) /\
  (desc x <> desc y -> never_asks (op_add_assign L false x (Other y)) (fun z => result B (signed_value B x + signed_value B y) z /\ desc z = desc x)).
Proof.
  intros (Fx & Dx & Cx) (Fy & Dy & Cy) Nx Hle. destruct x as [dx vx], y as [dy vy]. unfold finite, signed_value in *. cbn [desc data] in *.
  split; intros Hd al n.
  - subst dy. unfold op_sub_assign, adesc, adata, aview. cbn [desc data].
    assert (forall d2, exists z, diff_step L vx vy dx d2 al n = Ret z n /\ result B (match dx with BN_NEG => - value B vx | _ => value B vx end - match dx with BN_NEG => - value B vy | _ => value B vy end) z /\ desc z = dx) as K.
    { intros d2. destruct (diff_in_place vx vy dx d2 Dx Dy Cx Cy Nx Hle) as (r & Hp & Dr & Cr & Vr). exists (mkBN dx r). split; [apply Hp|]. split; [|reflexivity].
      split; [split; [exact Fx|split; [exact Dr|left; exact Cr]]|]. unfold signed_value. cbn [desc data]. destruct Fx as [-> | ->]; lia. }
    destruct Fx as [-> | ->]; cbn [desc_eqb andb orb isComputable negb].
    + destruct (K BN_NEG) as (z & E & H). exists z. split; [apply guarded_ret; exact E|exact H].
    + destruct (K BN_POS) as (z & E & H). exists z. split; [apply guarded_ret; exact E|exact H].
  - unfold op_add_assign, adesc, adata, aview. cbn [desc data].
    assert (forall d2, exists z, diff_step L vx vy dx d2 al n = Ret z n /\ result B (match dx with BN_NEG => - value B vx | _ => value B vx end + match dy with BN_NEG => - value B vy | _ => value B vy end) z /\ desc z = dx) as K.
    { intros d2. destruct (diff_in_place vx vy dx d2 Dx Dy Cx Cy Nx Hle) as (r & Hp & Dr & Cr & Vr). exists (mkBN dx r). split; [apply Hp|]. split; [|reflexivity].
      split; [split; [exact Fx|split; [exact Dr|left; exact Cr]]|]. unfold signed_value. cbn [desc data].
      destruct Fx as [-> | ->], Fy as [-> | ->]; try congruence; lia. }
    destruct Fx as [-> | ->], Fy as [-> | ->]; try congruence; cbn [desc_eqb andb orb isComputable negb].
    + destruct (K BN_NEG) as (z & E & H). exists z. split; [apply guarded_ret; exact E|exact H].
    + destruct (K BN_POS) as (z & E & H). exists z. split; [apply guarded_ret; exact E|exact H].
Qed.

Theorem difference_copies x y : plain B x -> plain B y -> value B (data x) < value B (data y) ->
  (desc x = desc y -> needs_memory (op_sub_assign L false x (Other y))) /\
  (desc x <> desc y -> needs_memory (op_add_assign L false x (Other y))).
Proof.
  intros (Fx & Dx & Cx) (Fy & Dy & Cy) Hlt. destruct x as [dx vx], y as [dy vy]. unfold finite in *. cbn [desc data] in *.
  split; intros Hd al n Hal.
  - subst dy. unfold op_sub_assign, adesc, adata, aview. cbn [desc data].
    destruct Fx as [-> | ->]; cbn [desc_eqb andb orb isComputable negb]; eexists _, (S n); apply guarded_fail; apply (diff_copies vx vy); auto.
  - unfold op_add_assign, adesc, adata, aview. cbn [desc data].
    destruct Fx as [-> | ->], Fy as [-> | ->]; try congruence; cbn [desc_eqb andb orb isComputable negb]; eexists _, (S n); apply guarded_fail;
      apply (diff_copies vx vy); auto.
Qed.

Lemma add_yields x y : digits_ok B x -> digits_ok B y -> canonical x -> canonical y ->
  yields (abs_val_add L x (other y)) (fun r => digits_ok B r /\ value B r = value B x + value B y /\ weak_canonical r).
Proof.
  intros Dx Dy Cx Cy. eapply yields_mono; [apply (abs_val_add_other L HL x y Dx Dy)|]. intros r (D & V & G). fold B in D, V.
  split; [exact D|]. split; [exact V|]. eapply (grown_canonical L HL x y); eauto; left; auto.
Qed.

Lemma add_same_yields x : digits_ok B x -> canonical x ->
  yields (abs_val_add L x same) (fun r => digits_ok B r /\ value B r = 2 * value B x /\ weak_canonical r).
Proof.
  intros Dx Cx. eapply yields_mono; [apply (abs_val_add_same L HL x Dx)|]. intros r (D & V & G). fold B in D, V.
  split; [exact D|]. split; [exact V|]. eapply (grown_canonical L HL x x); eauto; try (left; assumption). fold B. lia.
Qed.

(** the step of += for one sign *)
Lemma sum_step a inv d s al n : (d = BN_POS \/ d = BN_NEG) -> a <> [] ->
  yields (abs_val_add L a inv) (fun r => digits_ok B r /\ value B r = s /\ weak_canonical r) -> s < B ^ Z.of_nat (length a) ->
  exists z, (v <- abs_val_add L a inv ;; ret (mkBN d v)) al n = Ret z n /\
    result B (match d with BN_NEG => - s | _ => s end) z /\ desc z = d.
Proof.
  intros Fd Na H Hs. destruct (add_in_place L HL a inv n s Na H Hs) as (r & D & V & C & E). exists (mkBN d r). unfold bind. rewrite E.
  split; [reflexivity|]. split; [|reflexivity]. split; [split; [exact Fd|split; [exact D|exact C]]|].
  unfold signed_value. cbn [desc data]. fold B in V. destruct Fd as [-> | ->]; lia.
Qed.

Theorem sum_in_place x y : plain B x -> plain B y -> desc x = desc y -> data x <> [] ->
  value B (data x) + value B (data y) < B ^ Z.of_nat (length (data x)) ->
  never_asks (op_add_assign L false x (Other y)) (fun z => result B (signed_value B x + signed_value B y) z /\ desc z = desc x).
Proof.
  intros (Fx & Dx & Cx) (Fy & Dy & Cy) Hd Nx Hs al n. destruct x as [dx vx], y as [dy vy]. unfold finite, signed_value in *. cbn [desc data] in *.
  subst dy. unfold op_add_assign, adesc, adata, aview. cbn [desc data].
  destruct (sum_step vx (other vy) dx _ al n Fx Nx (add_yields vx vy Dx Dy Cx Cy) Hs) as (z & E & R & Ez). exists z.
  split; [|split; [|exact Ez]].
  - destruct Fx as [-> | ->]; cbn [desc_eqb andb orb isComputable negb]; apply guarded_ret; exact E.
  - destruct Fx as [-> | ->]; [exact R|]. replace (- value B vx + - value B vy) with (- (value B vx + value B vy)) by lia. exact R.
Qed.

Theorem sum_grows x y : plain B x -> plain B y -> desc x = desc y ->
  data x = [] \/ B ^ Z.of_nat (length (data x)) <= value B (data x) + value B (data y) -> needs_memory (op_add_assign L false x (Other y)).
Proof.
  intros (Fx & Dx & Cx) (Fy & Dy & Cy) Hd Hs al n Hal. destruct x as [dx vx], y as [dy vy]. unfold finite in *. cbn [desc data] in *. subst dy.
  destruct (add_grows L HL vx (other vy) n _ (add_yields vx vy Dx Dy Cx Cy) Hs (fun _ => add_nonempty L vx (other vy)) al Hal) as [k E].
  unfold op_add_assign, adesc, adata, aview. cbn [desc data].
  destruct Fx as [-> | ->]; cbn [desc_eqb andb orb isComputable negb]; eexists _, k; apply guarded_fail; unfold bind; rewrite E; reflexivity.
Qed.

Theorem double_in_place x : plain B x -> data x <> [] -> 2 * value B (data x) < B ^ Z.of_nat (length (data x)) ->
  never_asks (op_add_assign L false x Self) (fun z => result B (2 * signed_value B x) z /\ desc z = desc x).
Proof.
  intros (Fx & Dx & Cx) Nx Hs al n. destruct x as [dx vx]. unfold finite, signed_value in *. cbn [desc data] in *.
  unfold op_add_assign, adesc, adata, aview. cbn [desc data].
  destruct (sum_step vx same dx _ al n Fx Nx (add_same_yields vx Dx Cx) Hs) as (z & E & R & Ez). exists z.
  split; [|split; [|exact Ez]].
  - destruct Fx as [-> | ->]; cbn [desc_eqb andb orb isComputable negb]; apply guarded_ret; exact E.
  - destruct Fx as [-> | ->]; [exact R|]. replace (2 * - value B vx) with (- (2 * value B vx)) by lia. exact R.
Qed.

End Ops.

(** ** Comparisons *)

Lemma le_total a b : exists c, pure (abs_val_is_le a b) c.
Proof.
  unfold abs_val_is_le. destruct (Nat.ltb_spec (length a) (length b)); [eexists; apply pure_ret|].
  destruct (Nat.ltb_spec (length b) (length a)); [eexists; apply pure_ret|].
  assert (forall i, (i <= length a)%nat -> exists c, pure (le_loop a b i) c) as K; [|apply K; lia].
  induction i as [|i IH]; intros Hi; [eexists; apply pure_ret|]. destruct (IH ltac:(lia)) as [c Hc].
  destruct (nth_error_lt a i ltac:(lia)) as [x Ex]. destruct (nth_error_lt b i ltac:(lia)) as [y Ey].
  exists (if x <? y then true else if y <? x then false else c). intros al n. cbn [le_loop]. unfold bind, vget. rewrite Ex, Ey. cbn [ret].
  destruct (x <? y); [reflexivity|]. destruct (y <? x); [reflexivity|]. apply Hc.
Qed.

Lemma compare_total c x y : exists b, forall al n, compare c x y al n = Ret b n.
Proof.
  destruct (abs_val_is_ge_total (data x) (data y)) as (g & Hg & _). destruct (le_total (data x) (data y)) as [l Hl].
  destruct c; cbn [compare].
  - eexists; apply op_eq_pure.
  - eexists; apply op_ne_pure.
  - unfold op_gt. repeat match goal with |- context [if ?b then _ else _] => destruct b end; eexists; intros al n; first [reflexivity|apply abs_val_is_gt_pure|apply Hl].
  - unfold op_ge. repeat match goal with |- context [if ?b then _ else _] => destruct b end; eexists; intros al n; first [reflexivity|apply abs_val_is_lt_pure|apply Hg].
  - unfold op_lt. repeat match goal with |- context [if ?b then _ else _] => destruct b end; eexists; intros al n; first [reflexivity|apply abs_val_is_gt_pure|apply abs_val_is_lt_pure].
  - unfold op_le. repeat match goal with |- context [if ?b then _ else _] => destruct b end; eexists; intros al n; first [reflexivity|apply abs_val_is_gt_pure|apply Hl].
Qed.
