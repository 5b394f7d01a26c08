(** * Property C77: every program, with the arithmetic of the library, predicted by a calculator without digits *)
From Coq Require Import ZArith Lia List Bool Arith.
From Verif Require Import Base Spec Limits Compare AddSub Division Bignum Fourier Multiplication Machine While Clients Calculator Outcome Wp ValueProof
  AddSubProof DivisionProof HistoryProof Ieee IeeeProof PropMul PropProgram PropCompare Exact CalculatorProof.
Import ListNotations.
Open Scope Z_scope.

(** What the calculator is told about an object: its descriptor, and no digits or the integer they are. *)
Definition seen (B : Z) (x : bignum) : cnum := mkC (desc x) (match data x with [] => None | v => Some (value B v) end).
Definition all_seen (B : Z) (s : regs) : cstate := fun r => seen B (s r).
(** the digits are digits, without high-order zeros (a single zero digit is allowed); any descriptor *)
Definition tidy (B : Z) (x : bignum) : Prop := digits_ok B (data x) /\ weak_canonical (data x).

(** The outcome of an execution of the library against a prediction. *)
Definition as_predicted {A C} (R : A -> C -> Prop) (o : outcome C) (r : res A) : Prop :=
  match o with
  | Is c => exists a n, r = Ret a n /\ R a c
  | Crash => exists u, r = Undef u
  | Endless => r = NoFuel
  | Unknown => True
  end.

Lemma seen_shown B x : seen B x = shown B x.
Proof. unfold seen, shown, magof. destruct (data x); reflexivity. Qed.

(** It is all there is to an object: equal descriptions, equal objects. *)
Theorem C77_no_more : forall B x y, 2 <= B -> tidy B x -> tidy B y -> seen B x = seen B y -> x = y.
Proof.
  intros B [d v] [e w] HB Tx Ty E. rewrite !seen_shown in E. unfold shown in E. cbn [desc data] in *. injection E as -> E. f_equal.
  rewrite <- (digits_mag B HB v), <- (digits_mag B HB w) by assumption. rewrite E. reflexivity.
Qed.
Print Assumptions C77_no_more.

(** ** The four operators, for all pairs of objects: numbers of both signs, infinities, NaN, both zeros, an object with itself *)
Theorem C77_operators : forall ct cosf sinf L N m al n fuel keep op x y, accurate cosf sinf -> In (L, N, m) safe_lengths -> can_double L = true ->
  (forall k, al k = true) -> tidy (base L) x -> tidy (base L) (match y with Other z => z | Self => x end) ->
  Z.log2_up N < Z.of_nat fuel -> Z.log2 (value (base L) (data x)) + 2 <= Z.of_nat fuel ->
  as_predicted (fun a z => snd a = None /\ tidy (base L) (fst a) /\ seen (base L) (fst a) = z)
    (calc (base L) N m op (seen (base L) x) (seen (base L) (match y with Other z => z | Self => x end)))
    (compound (mkEnv L false (ieee ct cosf sinf) fuel keep) op x y al n).
Proof.
  intros ct cosf sinf L N m al n fuel keep op x y HA Hin HD Hal Tx Ty Hm Hf. rewrite !seen_shown.
  assert (wf (base L) (adata x y)) as Wy by (destruct y; exact Ty).
  pose proof (calc_run _ L N m (ieee_within ct cosf sinf L N m HA Hin) HD al Hal fuel keep op x y n Tx Wy Hm Hf) as K.
  replace (shown (base L) (match y with Other z => z | Self => x end)) with (sees (base L) x y) by (destruct y; reflexivity).
  refine (agrees_mono _ _ _ _ K _). intros a z (E & H1 & H2). rewrite seen_shown. auto.
Qed.
Print Assumptions C77_operators.

(** ** The six comparison operators, likewise *)
Theorem C77_comparisons : forall B c x y, 2 <= B -> tidy B x -> tidy B y -> answers (compare c x y) (ask B c (seen B x) (seen B y)).
Proof. intros B c x y HB Tx Ty. rewrite !seen_shown. exact (ask_run B HB c x y Tx Ty). Qed.
Print Assumptions C77_comparisons.

(** ** Programs *)

(** With enough rounds for the loops inside the operators, and memory: the program does what the calculator does.  If the calculator
    arrives at numbers, it returns and stores these; if the calculator crashes, its behaviour is undefined; and while the calculator is
    not done, it is not done either ([k] bounds the nesting depth of both executions). *)
Theorem C77_programs : forall ct cosf sinf L N m k p s al, accurate cosf sinf -> In (L, N, m) safe_lengths -> can_double L = true ->
  (forall j, al j = true) -> (forall r, tidy (base L) (s r)) ->
  exists enough : nat, forall fuel keep n, (enough <= fuel)%nat ->
  as_predicted (fun s' v => forall r, tidy (base L) (s' r) /\ seen (base L) (s' r) = v r)
    (crun (base L) N m k p (all_seen (base L) s))
    (srun (mkEnv L false (ieee ct cosf sinf) fuel keep) k p s al n).
Proof.
  intros ct cosf sinf L N m k p s al HA Hin HD Hal Ht.
  destruct (crun_run _ L N m (ieee_within ct cosf sinf L N m HA Hin) HD al Hal k p (all_seen (base L) s)) as [e K]. exists e. intros fuel keep n Hf.
  refine (agrees_mono _ _ _ _ (K fuel keep s n Hf _) _).
  - intros r. split; [apply Ht|]. symmetry. apply seen_shown.
  - intros s' v H r. rewrite seen_shown. apply H.
Qed.
Print Assumptions C77_programs.

(** A program that never ends on the calculator never ends. *)
Theorem C77_endless : forall ct cosf sinf L N m p s al, accurate cosf sinf -> In (L, N, m) safe_lengths -> can_double L = true ->
  (forall j, al j = true) -> (forall r, tidy (base L) (s r)) -> (forall k, crun (base L) N m k p (all_seen (base L) s) = Endless) ->
  forall k, exists enough : nat, forall fuel keep n, (enough <= fuel)%nat ->
  srun (mkEnv L false (ieee ct cosf sinf) fuel keep) k p s al n = NoFuel.
Proof.
  intros ct cosf sinf L N m p s al HA Hin HD Hal Ht He k.
  destruct (C77_programs ct cosf sinf L N m k p s al HA Hin HD Hal Ht) as [e K]. exists e. intros fuel keep n Hf.
  specialize (K fuel keep n Hf). rewrite He in K. exact K.
Qed.
Print Assumptions C77_endless.

(** ** Cases: the hypotheses hold of the variables of a fresh program in base 10, and the calculator runs *)
Definition start : cstate := fun _ => mkC BN_POS None.
Definition pocket (k : nat) (p : stmt) (r : nat) : option cnum :=
  match crun 10 (2 ^ 32) 47721858 k p start with Is v => Some (v r) | _ => None end.

Example C77_start : In (base10, 2 ^ 32, 47721858) safe_lengths /\ can_double base10 = true /\ (forall r, tidy 10 (fresh r)) /\
  (forall r, all_seen 10 fresh r = start r).
Proof.
  split; [unfold safe_lengths; cbn [In]; auto|]. split; [reflexivity|]. split; [|reflexivity].
  intros r. split; [constructor|left; discriminate].
Qed.

(** 7 - (-3) is 4; 105 - (-110) is 995; the greatest common divisor of 84 and 36; 6!; the root of 99; 0 - 0; 0 * 0 *)
Example C77_cases :
  pocket 5 (block [INew 0 BN_POS [7]; INew 1 BN_NEG [3]; IAssign OSub 0 1]) 0 = Some (mkC BN_POS (Some 4)) /\
  pocket 5 (block [INew 0 BN_POS [1; 0; 5]; INew 1 BN_NEG [1; 1; 0]; IAssign OSub 0 1]) 0 = Some (mkC BN_POS (Some 995)) /\
  pocket 40 (Seq (block [INew 0 BN_POS [8; 4]; INew 1 BN_POS [3; 6]]) euclid) 0 = Some (mkC BN_POS (Some 12)) /\
  pocket 40 (Seq (Do (INew 0 BN_POS [6])) factorial) 1 = Some (mkC BN_POS (Some 720)) /\
  pocket 40 (Seq (Do (INew 0 BN_POS [9; 9])) newton) 1 = Some (mkC BN_POS (Some 9)) /\
  crun 10 (2 ^ 32) 47721858 5 (Do (IBinary OSub 0 1 2)) start = Crash /\
  crun 10 (2 ^ 32) 47721858 5 (Do (IBinary OMul 0 1 2)) start = Endless.
Proof. vm_compute. repeat split. Qed.

(** the library itself, on the second of these *)
Example C77_library : 
  match srun (mkEnv base10 false exact 50 true) 5 (block [INew 0 BN_POS [1; 0; 5]; INew 1 BN_NEG [1; 1; 0]; IAssign OSub 0 1]) fresh never_fails 0%nat with
  | Ret s _ => s 0%nat = mkBN BN_POS [5; 9; 9] /\ seen 10 (s 0%nat) = mkC BN_POS (Some 995)
  | _ => False
  end.
Proof. split; reflexivity. Qed.

(** A loop that relies on <:  while (a < b) a += c;  with a = 20, b = 19 and c = -0.  It should not be entered, and it never ends,
    because 20 < 19 for the library. *)
Lemma wrong_loop : forall k v, v 0%nat = mkC BN_POS (Some 20) -> v 1%nat = mkC BN_POS (Some 19) -> v 2%nat = mkC BN_NEG None ->
  crun 10 (2 ^ 32) 47721858 k (While CLt 0 1 (Do (IAssign OAdd 0 2))) v = Endless.
Proof.
  induction k as [|k IH]; intros v V0 V1 V2; [reflexivity|]. cbn [crun]. rewrite V0, V1.
  change (ask 10 CLt (mkC BN_POS (Some 20)) (mkC BN_POS (Some 19))) with true. cbv iota.
  destruct k as [|j]; [reflexivity|]. cbn [crun cstep] in *. rewrite V0, V2.
  change (calc 10 (2 ^ 32) 47721858 OAdd (mkC BN_POS (Some 20)) (mkC BN_NEG None)) with (Is (mkC BN_POS (Some 20))). cbn [andthen].
  rewrite <- IH with (v := cset v 0 (mkC BN_POS (Some 20))) by (unfold cset; cbn [Nat.eqb]; auto). reflexivity.
Qed.

Theorem C77_wrong_loop : forall ct cosf sinf s al, accurate cosf sinf -> (forall j, al j = true) -> (forall r, tidy 10 (s r)) ->
  s 0%nat = mkBN BN_POS [0; 2] -> s 1%nat = mkBN BN_POS [9; 1] -> s 2%nat = mkBN BN_NEG [] ->
  forall k, exists enough : nat, forall fuel keep n, (enough <= fuel)%nat ->
  srun (mkEnv base10 false (ieee ct cosf sinf) fuel keep) k (While CLt 0 1 (Do (IAssign OAdd 0 2))) s al n = NoFuel.
Proof.
  intros ct cosf sinf s al HA Hal Ht S0 S1 S2.
  apply (C77_endless ct cosf sinf base10 (2 ^ 32) 47721858); auto; [unfold safe_lengths; cbn [In]; auto|].
  intros k. apply wrong_loop; unfold all_seen; rewrite ?S0, ?S1, ?S2; reflexivity.
Qed.
Print Assumptions C77_wrong_loop.
