(** * Property C78: the numbers a program computes do not depend on the digit type, except through > and <, subtraction across signs and products
      beyond the limits of a type *)
From Coq Require Import ZArith Lia List Bool Arith.
From Verif Require Import Base Spec Limits Compare AddSub Division Bignum Fourier Multiplication Machine While Clients Calculator Outcome Wp
  HistoryProof Ieee IeeeProof PropMul PropProgram Exact PropCalculator.
Import ListNotations.
Open Scope Z_scope.

(** ** A calculator that does not know a base *)
Definition plain_calc (op : arith_op) (x y : cnum) : outcome cnum :=
  if number (csign x) then
    match op with
    | OAdd => plus x y
    | OSub => if opposites x y then Unknown else apart x y (match csign x, csign y with BN_POS, BN_POS => BN_NEG | _, _ => BN_POS end)
    | OMul => match cmag x, cmag y with
              | None, None => Endless
              | a, b => Is (mkC (product_sign x y) (packed (amount a * amount b)))
              end
    | ODiv => over x y
    end
  else Is (mkC (csign y) None).

(** no answer where the library would look for a greater digit *)
Definition plain_ask (c : comparison) (x y : cnum) : option bool :=
  let a := cmag x in let b := cmag y in
  let same := desc_eqb (csign x) (csign y) && same_mag a b in
  match c, csign x, csign y with
  | CEq, _, _ => Some same
  | CNe, _, _ => Some (negb same)
  | (CGt | CGe), BN_POS, BN_NEG => Some true
  | (CGt | CGe), BN_NEG, BN_POS => Some false
  | (CLt | CLe), BN_POS, BN_NEG => Some false
  | (CLt | CLe), BN_NEG, BN_POS => Some true
  | CGt, BN_NEG, BN_NEG => Some (at_least b a)
  | (CGe | CLe), BN_NEG, BN_NEG => None
  | CGe, _, _ => Some (at_least a b)
  | CLe, _, _ => Some (at_least b a)
  | (CGt | CLt), _, _ => None
  end.

(** literals of one digit *)
Definition plain_step (i : instr) (s : cstate) : outcome cstate :=
  match i with
  | INew r d [] => Is (cset s r (mkC d None))
  | INew r d [e] => Is (cset s r (mkC d (packed e)))
  | ICopy r t => Is (cset s r (s t))
  | IMove r t => if (t =? r)%nat then Unknown else Is (cset (cset s t (mkC BN_POS None)) r (s t))
  | IAssign op r t => andthen (plain_calc op (s r) (s t)) (fun z => Is (cset s r z))
  | IBinary op r t u => andthen (plain_calc op (s t) (s u)) (fun z => Is (cset s r z))
  | ISetDesc r d => Is (cset s r (mkC d (if number d then cmag (s r) else None)))
  | IClear r => Is (cset s r (mkC BN_POS None))
  | _ => Unknown
  end.

Fixpoint plain_run (fuel : nat) (p : stmt) (s : cstate) : outcome cstate :=
  match fuel with
  | O => Endless
  | S f =>
    match p with
    | Do i => plain_step i s
    | Seq a b => andthen (plain_run f a s) (plain_run f b)
    | If c x y a b => match plain_ask c (s x) (s y) with Some t => plain_run f (if t then a else b) s | None => Unknown end
    | While c x y a =>
        match plain_ask c (s x) (s y) with
        | Some true => andthen (plain_run f a s) (plain_run f (While c x y a))
        | Some false => Is s
        | None => Unknown
        end
    end
  end.

(** ** Proofs *)
Definition below {A} (o p : outcome A) : Prop := o = Unknown \/ p = Unknown \/ p = o.
Lemma below_refl {A} (o : outcome A) : below o o.
Proof. right; right; reflexivity. Qed.
Lemma below_then {A C} (o p : outcome A) (f g : A -> outcome C) : below o p -> (forall a, below (f a) (g a)) -> below (andthen o f) (andthen p g).
Proof.
  intros [->|[->| ->]] K; [left; reflexivity|right; left; reflexivity|]. destruct o; cbn [andthen]; auto; apply below_refl.
Qed.

Lemma calc_below B N m op x y : below (plain_calc op x y) (calc B N m op x y).
Proof.
  unfold plain_calc, calc. destruct (number (csign x)); [|apply below_refl]. destruct op; try apply below_refl.
  - unfold minus. destruct (opposites x y); [left; reflexivity|apply below_refl].
  - unfold times. destruct (cmag x), (cmag y); try apply below_refl; (destruct (fits B N m _ _); [apply below_refl|right; left; reflexivity]).
Qed.

Lemma ask_below B c x y t : plain_ask c x y = Some t -> ask B c x y = t.
Proof. unfold plain_ask, ask. destruct c, (csign x), (csign y); intros H; try discriminate; injection H as <-; reflexivity. Qed.

Lemma step_below B N m i s : below (plain_step i s) (cstep B N m i s).
Proof.
  destruct i; cbn [plain_step cstep]; try (left; reflexivity); try apply below_refl.
  - destruct l as [|e [|e' l]]; try (left; reflexivity).
    + apply below_refl.
    + cbn [forallb]. destruct (digit_range B e && true); [|right; left; reflexivity]. right; right. unfold reading. cbn [fold_left]. reflexivity.
  - apply below_then; [apply calc_below|]. intros a. apply below_refl.
  - apply below_then; [apply calc_below|]. intros a. apply below_refl.
Qed.

Lemma run_below B N m k : forall p s, below (plain_run k p s) (crun B N m k p s).
Proof.
  induction k as [|k IH]; intros p s; [apply below_refl|]. destruct p as [i|p q|c x y p q|c x y p]; cbn [plain_run crun].
  - apply step_below.
  - apply below_then; auto.
  - destruct (plain_ask c (s x) (s y)) as [t|] eqn:E; [|left; reflexivity]. rewrite (ask_below B _ _ _ _ E). destruct t; apply IH.
  - destruct (plain_ask c (s x) (s y)) as [t|] eqn:E; [|left; reflexivity]. rewrite (ask_below B _ _ _ _ E). destruct t; [|apply below_refl].
    apply below_then; auto.
Qed.

(** ** C78 *)

(** If the baseless calculator arrives at numbers, then every type of the library whose limits the products respect arrives at them. *)
Theorem C78_numbers : forall ct cosf sinf L N m k p s al w, accurate cosf sinf -> In (L, N, m) safe_lengths -> can_double L = true ->
  (forall j, al j = true) -> (forall r, tidy (base L) (s r)) ->
  plain_run k p (all_seen (base L) s) = Is w -> crun (base L) N m k p (all_seen (base L) s) <> Unknown ->
  exists enough : nat, forall fuel keep n, (enough <= fuel)%nat ->
  exists s' n', srun (mkEnv L false (ieee ct cosf sinf) fuel keep) k p s al n = Ret s' n' /\ forall r, tidy (base L) (s' r) /\ seen (base L) (s' r) = w r.
Proof.
  intros ct cosf sinf L N m k p s al w HA Hin HD Hal Ht Hw Hu.
  destruct (C77_programs ct cosf sinf L N m k p s al HA Hin HD Hal Ht) as [e K]. exists e. intros fuel keep n Hf. specialize (K fuel keep n Hf).
  destruct (run_below (base L) N m k p (all_seen (base L) s)) as [E|[E|E]]; [rewrite Hw in E; discriminate|contradiction|].
  rewrite E, Hw in K. exact K.
Qed.
Print Assumptions C78_numbers.

(** Two types, two machines (two mathematical libraries, two ways to contract), the same numbers in the variables: the same numbers afterwards. *)
Theorem C78_types : forall ct1 cosf1 sinf1 ct2 cosf2 sinf2 L1 N1 m1 L2 N2 m2 k p s1 s2 al1 al2 w,
  accurate cosf1 sinf1 -> accurate cosf2 sinf2 -> In (L1, N1, m1) safe_lengths -> In (L2, N2, m2) safe_lengths ->
  can_double L1 = true -> can_double L2 = true -> (forall j, al1 j = true) -> (forall j, al2 j = true) ->
  (forall r, tidy (base L1) (s1 r)) -> (forall r, tidy (base L2) (s2 r)) ->
  (forall r, seen (base L1) (s1 r) = seen (base L2) (s2 r)) -> plain_run k p (all_seen (base L1) s1) = Is w ->
  crun (base L1) N1 m1 k p (all_seen (base L1) s1) <> Unknown -> crun (base L2) N2 m2 k p (all_seen (base L2) s2) <> Unknown ->
  exists enough : nat, forall f1 f2 keep1 keep2 n1 n2, (enough <= f1)%nat -> (enough <= f2)%nat ->
  exists s1' n1' s2' n2', srun (mkEnv L1 false (ieee ct1 cosf1 sinf1) f1 keep1) k p s1 al1 n1 = Ret s1' n1' /\
    srun (mkEnv L2 false (ieee ct2 cosf2 sinf2) f2 keep2) k p s2 al2 n2 = Ret s2' n2' /\
    forall r, seen (base L1) (s1' r) = seen (base L2) (s2' r).
Proof.
  intros ct1 cosf1 sinf1 ct2 cosf2 sinf2 L1 N1 m1 L2 N2 m2 k p s1 s2 al1 al2 w HA1 HA2 In1 In2 HD1 HD2 Ha1 Ha2 T1 T2 Es' Hw U1 U2.
  assert (all_seen (base L1) s1 = all_seen (base L2) s2) as Es by (apply FunctionalExtensionality.functional_extensionality; exact Es').
  destruct (C78_numbers ct1 cosf1 sinf1 L1 N1 m1 k p s1 al1 w HA1 In1 HD1 Ha1 T1 Hw U1) as [e1 K1].
  rewrite Es in Hw. destruct (C78_numbers ct2 cosf2 sinf2 L2 N2 m2 k p s2 al2 w HA2 In2 HD2 Ha2 T2 Hw U2) as [e2 K2].
  exists (Nat.max e1 e2). intros f1 f2 keep1 keep2 n1 n2 Hf1 Hf2.
  destruct (K1 f1 keep1 n1 ltac:(lia)) as (s1' & n1' & E1 & H1). destruct (K2 f2 keep2 n2 ltac:(lia)) as (s2' & n2' & E2 & H2).
  exists s1', n1', s2', n2'. split; [exact E1|]. split; [exact E2|]. intros r. rewrite (proj2 (H1 r)), (proj2 (H2 r)). reflexivity.
Qed.
Print Assumptions C78_types.

(** Without the restrictions: two types that are given the same numbers compute the same. *)
Definition C78_full_statement : Prop := forall L1 L2 P fuel i (s1 s2 : regs), limits_ok L1 = true -> limits_ok L2 = true ->
  (forall r, tidy (base L1) (s1 r)) -> (forall r, tidy (base L2) (s2 r)) -> (forall r, seen (base L1) (s1 r) = seen (base L2) (s2 r)) ->
  match step (mkEnv L1 false P fuel true) i s1 never_fails 0%nat, step (mkEnv L2 false P fuel true) i s2 never_fails 0%nat with
  | Ret s1' _, Ret s2' _ => forall r, seen (base L1) (s1' r) = seen (base L2) (s2' r)
  | _, _ => True
  end.

(** 105 - (-110) is 995 in base 10 and 0 in base 16 *)
Definition two (a b : bignum) : regs := fun r => match r with O => a | _ => b end.
Theorem C78_refuted : ~ C78_full_statement.
Proof.
  intros H.
  specialize (H base10 base16 exact 1%nat (IAssign OSub 0 1) (two (mkBN BN_POS [5; 0; 1]) (mkBN BN_NEG [0; 1; 1]))
    (two (mkBN BN_POS [9; 6]) (mkBN BN_NEG [14; 6])) eq_refl eq_refl).
  assert (forall r, tidy 10 (two (mkBN BN_POS [5; 0; 1]) (mkBN BN_NEG [0; 1; 1]) r)) as T1.
  { intros [|r]; (split; [cbn; unfold digits_ok; repeat constructor; lia|left; unfold canonical; cbn; lia]). }
  assert (forall r, tidy 16 (two (mkBN BN_POS [9; 6]) (mkBN BN_NEG [14; 6]) r)) as T2.
  { intros [|r]; (split; [cbn; unfold digits_ok; repeat constructor; lia|left; unfold canonical; cbn; lia]). }
  specialize (H T1 T2).
  specialize (H ltac:(intros [|r]; reflexivity)). vm_compute in H. specialize (H 0%nat). discriminate.
Qed.
Print Assumptions C78_refuted.

(** Euclid's algorithm on 84 and 36, then the factorial of the result: in base 2, 8, 10 and 16 *)
Definition sample : stmt := Seq euclid factorial.
Definition given : cstate := fun r => match r with O => mkC BN_POS (Some 84) | 1%nat => mkC BN_POS (Some 36) | _ => mkC BN_POS None end.
Definition read_off (o : outcome cstate) : option cnum := match o with Is v => Some (v 1%nat) | _ => None end.
Example C78_cases :
  read_off (plain_run 60 sample given) = Some (mkC BN_POS (Some 479001600)) /\
  map (fun t : limits * Z * Z => read_off (crun (base (fst (fst t))) (snd (fst t)) (snd t) 60 sample given))
    [(base2, 2 ^ 32, 128); (base8, 2 ^ 32, 1170); (base10, 2 ^ 32, 47721858); (base16, 2 ^ 32, 17895697)]
  = repeat (Some (mkC BN_POS (Some 479001600))) 4 /\
  map (fun t : limits * Z * Z => can_double (fst (fst t))) safe_lengths = [true; true; true; true; true; false; false].
Proof. split; [vm_compute; reflexivity|]. split; vm_compute; reflexivity. Qed.
