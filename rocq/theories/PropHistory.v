(** * Properties C34-C36, C44: what holds after any sequence of operations

    Programs are the client programs of Machine.v: any number of variables, any aliasing, each statement in a
    try/catch. *)
From Verif Require Import Base Spec Limits Compare AddSub Division Bignum Fourier Multiplication Machine Outcome Wp ValueProof BignumProof OperatorProof
  DivOpProof PropAddSub PropObject PropDivision HistoryProof.

(** ** C34 *)

(** Every digit that the client itself writes is in range. *)
Definition client_digits_ok (B : Z) (i : instr) : Prop :=
  match i with
  | INew _ _ l => digits_ok B l
  | IResize _ _ d | IPushBack _ d | IPushFront _ d | IPush _ d _ | ISetDigit _ _ d => 0 <= d < B
  | _ => True
  end.

(** For every program, number type, floating-point arithmetic, allocator behaviour and build. *)
Theorem C34_digits_in_range : forall E p s, limits_ok (eL E) = true ->
  Forall (client_digits_ok (base (eL E))) p -> (forall r, digits_ok (base (eL E)) (data (s r))) ->
  forall al n s' n', exec E p s al n = Ret s' n' -> forall r, digits_ok (base (eL E)) (data (s' r)).
Proof.
  intros E p s HL Hp Hs al n s' n' He.
  pose proof (inv_exec_gen (ok (eL E)) (in_range (eL E)) E) as K.
  specialize (K (fun i s Hi Hs => range_step (eL E) HL E i s eq_refl Hi Hs) p s Hp Hs al n).
  rewrite He in K. exact K.
Qed.
Print Assumptions C34_digits_in_range.

(** A program that uses every kind of instruction and does complete; its digits stay decimal. *)
Definition trivial_flops : flops :=
  {| F := unit; fofZ := fun _ => tt; fadd := fun _ _ => tt; fsub := fun _ _ => tt; fmul := fun _ _ => tt;
     fdiv := fun _ _ => tt; fdet := fun _ _ _ _ _ => tt; fdot := fun _ _ _ _ _ => tt; fnan := fun _ => false; frecover := fun _ _ _ _ _ => (tt, tt); fneg := fun _ => tt; fcos := fun _ => tt; fsin := fun _ => tt; ffloor := fun _ => tt;
     ftrunc := fun _ => Some 0; fangle := fun _ _ => tt; c_half := tt; c_quarter := tt |}.
Definition env10 : env := mkEnv base10 false trivial_flops 50 false.
Definition busy_program : list instr :=
  [INew 0 BN_POS [9; 9; 5]; INew 1 BN_NEG [0; 3; 8]; IBinary OAdd 2 0 1; IAssign OAdd 0 0; IPushFront 0 7;
   IAssign OSub 1 2; INew 3 BN_POS [1; 2]; IBinary ODiv 4 0 3; ICopy 5 4; IMove 6 5; IPopBack 6; IPush 6 0 1;
   IResize 6 5 3; ISetDigit 6 2 4; IPopFront 6; IPop 6 1; IPushBack 6 1; ISetDesc 2 BN_NAN; IClear 3; IAssign OMul 4 1].
Example C34_case :
  Forall (client_digits_ok 10) busy_program /\
  match run (exec env10 busy_program fresh) with
  | Ret s _ => map (fun r => data (s r)) [0; 1; 2; 3; 4; 5; 6]%nat
               = [[7; 0; 9; 9; 1]; []; []; []; []; []; [0; 6; 3; 1]]
  | _ => False
  end.
Proof.
  split; [|vm_compute; reflexivity].
  unfold busy_program, client_digits_ok, digits_ok. repeat (apply Forall_cons || apply Forall_nil); lia || exact I.
Qed.

(** ** C35 *)

(** Statements that work on whole numbers: no single-digit access. *)
Definition arithmetic_only (B : Z) (i : instr) : Prop :=
  match i with
  | INew _ _ l => digits_ok B l
  | ICopy _ _ | IMove _ _ | IAssign _ _ _ | IBinary _ _ _ _ | ISetDesc _ _ | IClear _ => True
  | _ => False
  end.

Theorem C35_no_superfluous_zeros : forall E p s, can_double (eL E) = true \/ full_width (eL E) = true ->
  Forall (arithmetic_only (base (eL E))) p ->
  (forall r, digits_ok (base (eL E)) (data (s r)) /\ weak_canonical (data (s r))) ->
  forall al n s' n', exec E p s al n = Ret s' n' ->
  forall r, digits_ok (base (eL E)) (data (s' r)) /\ weak_canonical (data (s' r)).
Proof.
  intros E p s HD Hp Hs al n s' n' He.
  assert (limits_ok (eL E) = true) as HL.
  { destruct HD as [H|H]; unfold can_double, full_width in H; apply andb_true_iff in H; apply H. }
  pose proof (inv_exec_gen (wok (eL E)) (arithmetic_only (base (eL E))) E) as K.
  specialize (K (fun i s Hi Hs => weak_step (eL E) HL HD E i s eq_refl Hi Hs) p s Hp Hs al n).
  rewrite He in K. exact K.
Qed.
Print Assumptions C35_no_superfluous_zeros.

(** all shipped types qualify *)
Theorem C35_shipped_types : Forall (fun L => can_double L = true \/ full_width L = true) shipped.
Proof. repeat constructor; (left; reflexivity) || (right; reflexivity). Qed.
Print Assumptions C35_shipped_types.

(** Without the restriction the claim is false: resize and push_back store zeros. *)
Example C35_needed :
  match run (exec env10 [INew 0 BN_POS [1; 2]; IPushBack 0 0; IAssign OAdd 0 0] fresh) with
  | Ret s _ => data (s 0%nat) = [4; 2; 0] | _ => False end.
Proof. vm_compute. reflexivity. Qed.

Example C35_case :
  match run (exec env10 [INew 0 BN_POS [0; 9; 9]; INew 1 BN_POS [9; 8]; IAssign OSub 0 1; IAssign OAdd 0 0; IBinary ODiv 2 1 0; IAssign OSub 0 0] fresh) with
  | Ret s _ => data (s 0%nat) = [] /\ data (s 1%nat) = [8; 9] /\ data (s 2%nat) = [9; 4] | _ => False end.
Proof. vm_compute. auto. Qed.

(** ** C36 *)

(** Mathematical integers in place of Bignums. *)
Definition iupd (m : nat -> Z) (r : nat) (z : Z) : nat -> Z := fun i => if (i =? r)%nat then z else m i.

Definition sign_of (d : bn_desc_t) : Z := match d with BN_NEG => -1 | _ => 1 end.

Definition additive (B : Z) (i : instr) : Prop :=
  match i with
  | INew _ d l => (d = BN_POS \/ d = BN_NEG) /\ digits_ok B l
  | ICopy _ _ | IClear _ | IAssign OAdd _ _ | IBinary OAdd _ _ _ => True
  | IMove r t => r <> t
  | _ => False
  end.

Definition integer_step (B : Z) (i : instr) (m : nat -> Z) : nat -> Z :=
  match i with
  | INew r d l => iupd m r (sign_of d * written_value B l)
  | ICopy r t => iupd m r (m t)
  | IMove r t => iupd (iupd m t 0) r (m t)
  | IClear r => iupd m r 0
  | IAssign _ r t => iupd m r (m r + m t)
  | IBinary _ r t u => iupd m r (m t + m u)
  | _ => m
  end.
Definition integer_exec (B : Z) (p : list instr) (m : nat -> Z) : nat -> Z :=
  fold_left (fun m i => integer_step B i m) p m.

Definition represents (B : Z) (s : regs) (m : nat -> Z) : Prop :=
  forall r, good B (s r) /\ signed_value B (s r) = m r.

Lemma represents_upd B s m r x z : represents B s m -> good B x -> signed_value B x = z ->
  represents B (upd s r x) (iupd m r z).
Proof. intros H G V i. unfold upd, iupd. destruct (i =? r)%nat; auto. Qed.

Lemma assigns_run m Q bad al n : assigns m Q bad -> (forall k, al k = true) ->
  exists z n', m al n = Ret (z, None) n' /\ Q z.
Proof.
  intros H Hal. specialize (H al n). destruct (m al n) as [[z [e|]] n'|e n'|u|]; try contradiction.
  - destruct H as (_ & _ & k & _ & Hk). rewrite Hal in Hk. discriminate.
  - exists z, n'. split; [reflexivity|apply H].
Qed.

Lemma returns_run {A} (m : M A) Q al n : returns m Q -> (forall k, al k = true) ->
  exists z n', m al n = Ret z n' /\ Q z.
Proof.
  intros H Hal. specialize (H al n). destruct (m al n) as [z n'|e n'|u|]; try contradiction.
  - exists z, n'. split; [reflexivity|apply H].
  - destruct H as (_ & k & _ & Hk). rewrite Hal in Hk. discriminate.
Qed.

Lemma store_run s r m al n z n' : m al n = Ret z n' -> store s r m al n = Ret (upd s r z) n'.
Proof. intros E. unfold store, bind, attempt. rewrite E. reflexivity. Qed.

Lemma make_good L d l : limits_ok L = true -> (d = BN_POS \/ d = BN_NEG) -> digits_ok (base L) l ->
  good (base L) (mkBN d (rev (strip l))) /\
  signed_value (base L) (mkBN d (rev (strip l))) = sign_of d * written_value (base L) l.
Proof.
  intros HL Hd Hl.
  assert (value (base L) (rev (strip l)) = written_value (base L) l) as V.
  { destruct (strip_split l) as [k E]. rewrite E at 2. rewrite <- !value_rev, rev_app_distr, value_app.
    rewrite (value_rev _ (repeat 0 k)).
    assert (forall j, written_value (base L) (repeat 0 j) = 0) as ->; [|ring].
    induction j as [|j IH]; [reflexivity|]. exact IH. }
  split.
  - split; [exact Hd|split]; cbn [data]; [|left; apply (canonical_strip L)].
    apply (ok_strip L l Hl).
  - unfold signed_value. cbn [desc data]. rewrite V. destruct Hd as [-> | ->]; cbn [sign_of]; ring.
Qed.

Lemma make_run L d l al n : limits_ok L = true -> (d = BN_POS \/ d = BN_NEG) -> digits_ok (base L) l ->
  (forall k, al k = true) -> exists n', bn_make L d l al n = Ret (mkBN d (rev (strip l))) n'.
Proof.
  intros HL Hd Hl Hal. rewrite make_spec by (apply AddSubProof.limits_ok_facts in HL; tauto).
  destruct l; [eexists; reflexivity|]. rewrite Hal. eexists; reflexivity.
Qed.

Lemma good_default B : good B bn_default /\ signed_value B bn_default = 0.
Proof.
  split; [|reflexivity]. split; [left; reflexivity|]. split; [constructor|left; apply canonical_nil].
Qed.

Lemma signed_opposite x y : finite x -> finite y -> ~ (desc x = desc y \/ data x <> [] \/ data y <> []) ->
  x = mkBN (desc x) [] /\ y = mkBN (desc y) [] /\
  (desc x = BN_POS /\ desc y = BN_NEG \/ desc x = BN_NEG /\ desc y = BN_POS).
Proof.
  intros Fx Fy N. destruct x as [dx vx], y as [dy vy]. cbn [desc data] in *.
  assert (vx = []) as -> by (destruct vx; auto; exfalso; apply N; right; left; discriminate).
  assert (vy = []) as -> by (destruct vy; auto; exfalso; apply N; right; right; discriminate).
  destruct Fx as [Fx|Fx], Fy as [Fy|Fy]; cbn in Fx, Fy; subst; auto; exfalso; apply N; auto.
Qed.

Lemma additive_step E i s m al n : limits_ok (eL E) = true -> eDbg E = false -> (forall k, al k = true) ->
  additive (base (eL E)) i -> represents (base (eL E)) s m ->
  match step E i s al n with
  | Ret s' _ => represents (base (eL E)) s' (integer_step (base (eL E)) i m)
  | Undef UB_index => True
  | _ => False
  end.
Proof.
  intros HL Hdbg Hal Hi Hs. destruct i; try contradiction; cbn [step integer_step].
  - destruct Hi as [Hd Hl]. destruct (make_run (eL E) d l al n HL Hd Hl Hal) as [n' Hm].
    rewrite (store_run _ _ _ _ _ _ _ Hm). destruct (make_good (eL E) d l HL Hd Hl). apply represents_upd; auto.
  - unfold bind, operand. destruct (Nat.eqb_spec s0 r) as [->|N].
    + cbn [bn_copy_assign ret fst]. apply represents_upd; auto; apply Hs.
    + rewrite (proj1 (C40_copy_assign _ _ al n)). rewrite Hal. cbn [ret fst]. apply represents_upd; auto; apply Hs.
  - cbn in Hi. rewrite (proj2 (Nat.eqb_neq _ _) (not_eq_sym Hi)). cbn [bn_move_assign ret].
    apply represents_upd; try apply Hs. apply represents_upd; auto; apply good_default.
  - destruct op; try contradiction. cbn [compound]. rewrite Hdbg. unfold bind, operand.
    destruct (Hs r) as [Gr Vr], (Hs s0) as [Gt Vt]. destruct (Nat.eqb_spec s0 r) as [->|N].
    + destruct (assigns_run _ _ _ al n (C02_add_to_itself (eL E) (s r) HL Gr) Hal) as (z & n' & -> & G & _ & V).
      cbn [ret fst]. apply represents_upd; auto. lia.
    + assert ((desc (s r) = desc (s s0) \/ data (s r) <> [] \/ data (s s0) <> []) \/
              ~ (desc (s r) = desc (s s0) \/ data (s r) <> [] \/ data (s s0) <> [])) as [H|H].
      { destruct (data (s r)); [|left; right; left; discriminate].
        destruct (data (s s0)); [|left; right; right; discriminate].
        destruct (desc (s r)), (desc (s s0)); (left; left; reflexivity) || (right; intros [?|[?|?]]; congruence). }
      * destruct (assigns_run _ _ _ al n (C01_add_assign (eL E) (s r) (s s0) HL Gr Gt H) Hal) as (z & n' & -> & G & V).
        cbn [ret fst]. apply represents_upd; auto. lia.
      * destruct (signed_opposite _ _ (proj1 Gr) (proj1 Gt) H) as (Ex & Ey & Ed). rewrite Ex, Ey.
        rewrite (C04_add_digitless_undefined (eL E) _ _ Ed al n). exact I.
  - destruct op; try contradiction. cbn [compound]. rewrite Hdbg.
    destruct (Hs s0) as [Gr Vr], (Hs t) as [Gt Vt].
    assert ((desc (s s0) = desc (s t) \/ data (s s0) <> [] \/ data (s t) <> []) \/
            ~ (desc (s s0) = desc (s t) \/ data (s s0) <> [] \/ data (s t) <> [])) as [H|H].
    { destruct (data (s s0)); [|left; right; left; discriminate].
      destruct (data (s t)); [|left; right; right; discriminate].
      destruct (desc (s s0)), (desc (s t)); (left; left; reflexivity) || (right; intros [?|[?|?]]; congruence). }
    + destruct (returns_run _ _ al n (C01_add (eL E) (s s0) (s t) HL Gr Gt H) Hal) as (z & n' & Ez & G & V).
      unfold op_add in Ez. rewrite (store_run _ _ _ _ _ _ _ Ez). apply represents_upd; auto. lia.
    + destruct (signed_opposite _ _ (proj1 Gr) (proj1 Gt) H) as (Ex & Ey & Ed). rewrite Ex, Ey.
      unfold store, attempt, binary, bn_copy, vcopy, alloc, bind. rewrite Hal. cbn [ret data desc].
      rewrite (C04_add_digitless_undefined (eL E) _ _ Ed al _). exact I.
  - apply represents_upd; auto; apply good_default.
Qed.

(** Under an allocator that does not fail, such a program never throws and always ends; either every variable
    has the integer value the mathematical program computes, or the program reached the undefined behaviour of
    adding two digit-less zeros of opposite sign (C04). *)
Theorem C36_additive_programs : forall E p s m, limits_ok (eL E) = true -> eDbg E = false ->
  Forall (additive (base (eL E))) p -> represents (base (eL E)) s m ->
  forall al n, (forall k, al k = true) ->
  match exec E p s al n with
  | Ret s' _ => represents (base (eL E)) s' (integer_exec (base (eL E)) p m)
  | Undef UB_index => True
  | _ => False
  end.
Proof.
  intros E p s m HL Hd Hp Hs al n Hal. revert s m n Hs. induction Hp as [|i p Hi Hp IH]; intros s m n Hs.
  - exact Hs.
  - cbn [exec]. unfold bind. pose proof (additive_step E i s m al n HL Hd Hal Hi Hs) as K.
    destruct (step E i s al n) as [s' n'|e n'|u|]; try contradiction; [|exact K].
    apply (IH s' (integer_step (base (eL E)) i m) n' K).
Qed.
Print Assumptions C36_additive_programs.

Example C36_case :
  let p := [INew 0 BN_POS [9; 9; 5]; INew 1 BN_NEG [2; 0; 0; 0]; IBinary OAdd 2 0 1; IAssign OAdd 2 2; IMove 3 2; IAssign OAdd 0 3] in
  Forall (additive 10) p /\ represents 10 fresh (fun _ => 0) /\
  integer_exec 10 p (fun _ => 0) 0%nat = -1015 /\
  match run (exec env10 p fresh) with Ret s _ => s 0%nat = mkBN BN_NEG [5; 1; 0; 1] | _ => False end.
Proof.
  cbv zeta. split; [|split; [|split]].
  - repeat constructor; cbn; auto; try (repeat constructor; lia); discriminate.
  - intros r. split; [|reflexivity]. split; [left; reflexivity|]. split; [constructor|left; cbn; discriminate].
  - vm_compute. reflexivity.
  - vm_compute. reflexivity.
Qed.

(** ** C44: programs over the natural numbers, with subtraction and division *)

(** A natural-number program runs a statement only if: constructions are positive; a difference has a
    positive minuend that is not below the subtrahend; a division has a positive divisor, different from the
    dividend unless it is 1. *)
Definition nat_step (B : Z) (i : instr) (m : nat -> Z) : option (nat -> Z) :=
  match i with
  | INew r BN_POS l => if forallb (fun d => (0 <=? d) && (d <? B)) l then Some (iupd m r (written_value B l)) else None
  | ICopy r t => Some (iupd m r (m t))
  | IMove r t => if (r =? t)%nat then None else Some (iupd (iupd m t 0) r (m t))
  | IClear r => Some (iupd m r 0)
  | IAssign op r t | IBinary op r _ t =>
      let x := match i with IBinary _ _ u _ => m u | _ => m r end in
      match op with
      | OAdd => Some (iupd m r (x + m t))
      | OSub => if (0 <? x) && (m t <=? x) then Some (iupd m r (x - m t)) else None
      | ODiv => if (0 <? m t) && (negb (x =? m t) || (m t =? 1)) then Some (iupd m r (x / m t)) else None
      | OMul => None
      end
  | _ => None
  end.
Fixpoint nat_exec (B : Z) (p : list instr) (m : nat -> Z) : option (nat -> Z) :=
  match p with
  | [] => Some m
  | i :: q => match nat_step B i m with Some m' => nat_exec B q m' | None => None end
  end.

(** every variable is a non-negative number with descriptor BN_POS *)
Definition holds_nats (B : Z) (s : regs) (m : nat -> Z) : Prop :=
  forall r, desc (s r) = BN_POS /\ digits_ok B (data (s r)) /\ weak_canonical (data (s r)) /\ value B (data (s r)) = m r.

Lemma nats_upd B s m r x z : holds_nats B s m -> desc x = BN_POS -> good B x -> value B (data x) = z ->
  holds_nats B (upd s r x) (iupd m r z).
Proof. intros H D (_ & G1 & G2) V i. unfold upd, iupd. destruct (i =? r)%nat; auto. Qed.

Lemma nats_good B s m r : holds_nats B s m -> good B (s r) /\ signed_value B (s r) = m r /\ value B (data (s r)) = m r /\ desc (s r) = BN_POS.
Proof.
  intros H. destruct (H r) as (D & O & W & V). repeat split; auto.
  - left; auto.
  - unfold signed_value. rewrite D. exact V.
Qed.

(** the descriptor of a result, beside its value *)
Lemma value_pos_data B x v : signed_value B x = v -> 0 < value B (data x) -> data x <> [].
Proof. intros _ H E. rewrite E in H. cbn in H. lia. Qed.

Lemma canonical_of_weak B v : weak_canonical v -> value B v <> 0 -> canonical v /\ v <> [].
Proof.
  intros [C| ->] H; [|cbn in H; lia]. split; auto. intros ->. cbn in H. lia.
Qed.

Lemma desc_of_value B x : 2 <= B -> good B x -> 0 < signed_value B x -> desc x = BN_POS.
Proof.
  intros HB (F & D & _) H. destruct F as [F|F]; auto. unfold signed_value in H. rewrite F in H.
  pose proof (value_bounds B HB (data x) D). lia.
Qed.

(** all compound assignments between positive numbers leave a positive number *)
Lemma add_desc L x y : desc x = BN_POS -> adesc x y = BN_POS -> may (op_add_assign L false x y) (fun a => snd a = None -> desc (fst a) = BN_POS).
Proof.
  intros Dx Dy. unfold op_add_assign. rewrite Dx, Dy. cbn [isComputable negb desc_eqb andb]. intros al n. unfold guarded, bind.
  destruct (abs_val_add L (data x) (aview y) al n) as [v n'|[] n'|u|]; cbn; auto; discriminate.
Qed.

Lemma sub_desc L x y : desc x = BN_POS -> adesc x y = BN_POS -> pure (abs_val_is_ge (data x) (adata x y)) true ->
  may (op_sub_assign L false x y) (fun a => snd a = None -> desc (fst a) = BN_POS).
Proof.
  intros Dx Dy Hge. unfold op_sub_assign. rewrite Dx, Dy. cbn [isComputable negb desc_eqb andb]. intros al n. unfold guarded, bind.
  rewrite (Hge al n). destruct (abs_val_sub L false (data x) (aview y) al n) as [v n'|[] n'|u|]; cbn; auto; discriminate.
Qed.

Lemma div_desc L fuel x y : desc x = BN_POS -> adesc x y = BN_POS -> adata x y <> [0] -> limits_ok L = true ->
  may (op_div_assign L false fuel x y) (fun a => snd a = None -> desc (fst a) = BN_POS).
Proof.
  intros Dx Dy Ny HL. unfold op_div_assign. rewrite Dx, Dy. cbn [isComputable negb desc_eqb andb product_desc]. cbv zeta.
  rewrite !(bmin_wrap L HL).
  replace (match adata x y with [a] => a =? 0 | _ => false end) with false.
  2: { destruct (adata x y) as [|a [|b r]]; auto. symmetry; apply Z.eqb_neq. congruence. }
  destruct (match adata x y with [x0] => x0 =? wrap (ws L) 1 | _ => false end); [apply may_ret; reflexivity|].
  destruct (match data x with [] => true | [x0] => x0 =? 0 | _ => false end); [apply may_ret; reflexivity|].
  intros al n. unfold guarded, bind. destruct (abs_val_is_gt (data x) (adata x y) al n) as [[] n'|[] n'|u|]; cbn; auto; try discriminate.
  - destruct (abs_val_div L false fuel (data x) (adata x y) al n') as [v n''|[] n''|u|]; cbn; auto; discriminate.
  - unfold vcopy, alloc, bind. destruct (al n'); cbn; auto. discriminate.
Qed.

Lemma nat_ge B v w : 2 <= B -> digits_ok B v -> digits_ok B w -> weak_canonical v -> weak_canonical w ->
  0 < value B v -> value B w <= value B v -> CompareProof.geb B v w = true.
Proof.
  intros HB Dv Dw Cv Cw H0 H1. destruct (canonical_of_weak B v Cv ltac:(lia)) as [C N].
  destruct Cw as [Cw| ->].
  - rewrite (CompareProof.geb_canonical B HB) by auto. apply Z.leb_le. exact H1.
  - unfold CompareProof.geb. destruct v as [|a [|b v]]; [congruence| |reflexivity]. cbn in *. apply Z.leb_le. lia.
Qed.

(** one compound assignment between two natural numbers *)
Lemma nat_op E op x y vx vy al n : can_double (eL E) = true -> eDbg E = false -> (forall k, al k = true) ->
  desc x = BN_POS -> good (base (eL E)) x -> value (base (eL E)) (data x) = vx ->
  adesc x y = BN_POS -> good (base (eL E)) (match y with Other z => z | Self => x end) -> value (base (eL E)) (adata x y) = vy ->
  Z.log2 vx + 2 <= Z.of_nat (eFuel E) ->
  match op with
  | OAdd => True
  | OSub => 0 < vx /\ vy <= vx
  | ODiv => 0 < vy /\ (vx <> vy \/ vy = 1)
  | OMul => False
  end ->
  exists z n', compound E op x y al n = Ret (z, None) n' /\ desc z = BN_POS /\ good (base (eL E)) z /\
    value (base (eL E)) (data z) = match op with OAdd => vx + vy | OSub => vx - vy | _ => vx / vy end.
Proof.
  intros HD Hdbg Hal Dx Gx Vx Dy Gy Vy Hf Hop.
  assert (limits_ok (eL E) = true) as HL by (unfold can_double in HD; apply andb_true_iff in HD; apply HD).
  pose proof (AddSubProof.HB (eL E) HL) as HB.
  assert (forall z, desc z = BN_POS -> signed_value (base (eL E)) z = value (base (eL E)) (data z)) as SV
    by (intros z Hz; unfold signed_value; rewrite Hz; reflexivity).
  assert (forall Q bad, assigns (compound E op x y) Q bad ->
          may (compound E op x y) (fun a => snd a = None -> desc (fst a) = BN_POS) ->
          exists z n', compound E op x y al n = Ret (z, None) n' /\ desc z = BN_POS /\ Q z) as Key.
  { intros Q bad HA HM. destruct (assigns_run _ _ _ al n HA Hal) as (z & n' & Ez & Hz). specialize (HM al n). rewrite Ez in HM.
    exists z, n'. auto. }
  assert (0 <= vx) as Px by (rewrite <- Vx; apply (value_bounds _ HB), Gx).
  assert (0 <= vy) as Py. { rewrite <- Vy. apply (value_bounds _ HB). destruct y; apply Gy. }
  destruct op; try contradiction; cbn [compound] in *; rewrite Hdbg in *.
  - assert (may (op_add_assign (eL E) false x y) (fun a => snd a = None -> desc (fst a) = BN_POS)) as HM by (apply add_desc; auto).
    destruct y as [y|]; cbn [adesc adata] in *.
    + destruct (Key _ _ (C01_add_assign (eL E) x y HL Gx Gy (or_introl (eq_trans Dx (eq_sym Dy)))) HM) as (z & n' & Ez & Dz & Gz & Vz).
      exists z, n'. rewrite !SV in Vz by auto. repeat split; auto; try apply Gz. lia.
    + destruct (Key _ _ (C02_add_to_itself (eL E) x HL Gx) HM) as (z & n' & Ez & Dz & Gz & _ & Vz).
      exists z, n'. rewrite !SV in Vz by auto. repeat split; auto; try apply Gz. lia.
  - destruct Hop as [H0 H1]. assert (data x <> []) as Nx by (intros Ee; rewrite Ee in Vx; cbn in Vx; lia).
    destruct y as [y|]; cbn [adesc adata] in *.
    + assert (pure (abs_val_is_ge (data x) (data y)) true) as Hge.
      { replace true with (CompareProof.geb (base (eL E)) (data x) (data y)); [apply (CompareProof.abs_val_is_ge_pure _ HB); [apply Gx|apply Gy]|].
        apply nat_ge; auto; try apply Gx; try apply Gy; lia. }
      destruct (Key _ _ (C03_sub_assign (eL E) x y HL Gx Gy (eq_trans Dx (eq_sym Dy)) (or_introl Nx))
                  (sub_desc (eL E) x (Other y) Dx Dy Hge)) as (z & n' & Ez & Dz & Gz & _ & Vz).
      exists z, n'. rewrite !SV in Vz by auto. repeat split; auto; try apply Gz. lia.
    + destruct (Key _ _ (C03_sub_from_itself (eL E) x HL (proj1 Gx) (proj1 (proj2 Gx)) Nx)
                  (sub_desc (eL E) x Self Dx Dy (ge_refl_pure (eL E) (data x)))) as (z & n' & Ez & Dz & Hz).
      exists z, n'. rewrite Hz. cbn [desc data value]. split; [congruence|]. split; [exact Dx|]. split; [|lia].
      split; [exact (proj1 Gx)|]. split; [constructor|left; apply canonical_nil].
  - destruct Hop as [H0 H1]. 
    assert (adata x y <> [0]) as Ny by (intros Ee; rewrite Ee in Vy; cbn in Vy; lia).
    pose proof (div_desc (eL E) (eFuel E) x y Dx Dy Ny HL) as HM.
    destruct y as [y|]; cbn [adesc adata] in *.
    + assert (canonical (data y) /\ data y <> []) as [Cy Nyy].
      { apply (canonical_of_weak (base (eL E))); [apply Gy|lia]. }
      destruct (Key _ _ (C24_division (eL E) (eFuel E) x y HD Gx Gy Cy Nyy ltac:(rewrite Vx; exact Hf) ltac:(rewrite Vx, Vy; exact H1)) HM)
        as (z & n' & Ez & Dz & Gz & Vz).
      exists z, n'. rewrite !SV in Vz by auto. repeat split; auto; try apply Gz. rewrite Vz, Vx, Vy. apply Z.quot_div_nonneg; lia.
    + assert (vx = 1) as E1 by lia.
      assert (data x = [1]) as Ex.
      { destruct (canonical_of_weak (base (eL E)) (data x)) as [Cx Nx]; [apply Gx|lia|].
        apply (value_inj _ HB); auto; [apply Gx|constructor; [lia|constructor]|unfold canonical; cbn; lia|].
        rewrite Vx, E1. cbn [value]. ring. }
      exists (mkBN BN_POS [1]), n. split; [|split; [reflexivity|split]].
      * unfold op_div_assign. rewrite Dx. cbn [isComputable negb adata adesc]. rewrite Dx. cbv zeta. rewrite Ex.
        rewrite (bmin_wrap _ HL), (one_wrap _ HL). reflexivity.
      * split; [left; reflexivity|]. cbn [data]. split; [constructor; [lia|constructor]|left; unfold canonical; cbn; lia].
      * cbn [data value]. replace vy with 1 by lia. rewrite E1. change (1 / 1) with 1. ring.
Qed.

Definition step_fuel (i : instr) (m : nat -> Z) : nat :=
  match i with
  | IAssign _ r _ => Z.to_nat (Z.log2 (m r) + 2)
  | IBinary _ _ t _ => Z.to_nat (Z.log2 (m t) + 2)
  | _ => 0%nat
  end.

Lemma nat_step_run E i s m m1 al n : can_double (eL E) = true -> eDbg E = false -> (forall k, al k = true) ->
  (step_fuel i m <= eFuel E)%nat -> holds_nats (base (eL E)) s m -> nat_step (base (eL E)) i m = Some m1 ->
  exists s1 n1, step E i s al n = Ret s1 n1 /\ holds_nats (base (eL E)) s1 m1.
Proof.
  intros HD Hdbg Hal Hf Hs Hi.
  assert (limits_ok (eL E) = true) as HL by (unfold can_double in HD; apply andb_true_iff in HD; apply HD).
  assert (forall op (x y : Z) r m1, match op with
      | OAdd => Some (iupd m r (x + y))
      | OSub => if (0 <? x) && (y <=? x) then Some (iupd m r (x - y)) else None
      | OMul => None
      | ODiv => if (0 <? y) && (negb (x =? y) || (y =? 1)) then Some (iupd m r (x / y)) else None
      end = Some m1 ->
      match op with
      | OAdd => True | OSub => 0 < x /\ y <= x | ODiv => 0 < y /\ (x <> y \/ y = 1) | OMul => False end /\
      m1 = iupd m r (match op with OAdd => x + y | OSub => x - y | _ => x / y end)) as Inv.
  { intros op x y r m2 H. destruct op; try discriminate.
    - inversion H; auto.
    - destruct (Z.ltb_spec 0 x); [|discriminate]. destruct (Z.leb_spec y x); [|discriminate]. inversion H; subst. split; [lia|reflexivity].
    - destruct (Z.ltb_spec 0 y); [|discriminate]. destruct (Z.eqb_spec x y), (Z.eqb_spec y 1); try discriminate; inversion H; subst; split; auto. }
  destruct i; try discriminate; cbn [step nat_step step_fuel] in *.
  - destruct d; try discriminate. destruct (forallb _ l) eqn:El; [|discriminate]. inversion Hi; subst.
    assert (digits_ok (base (eL E)) l) as Dl.
    { apply Forall_forall. intros z Hz. rewrite forallb_forall in El. specialize (El z Hz). lia. }
    destruct (make_run (eL E) BN_POS l al n HL (or_introl eq_refl) Dl Hal) as [n' Em].
    destruct (make_good (eL E) BN_POS l HL (or_introl eq_refl) Dl) as [G V].
    eexists _, n'. split; [apply (store_run _ _ _ _ _ _ _ Em)|]. apply nats_upd; auto. unfold signed_value in V. cbn [desc data sign_of] in *. lia.
  - inversion Hi; subst. destruct (nats_good _ _ _ s0 Hs) as (G & _ & V & D). unfold bind, operand. destruct (Nat.eqb_spec s0 r) as [->|N].
    + eexists _, n. split; [reflexivity|]. cbn [fst]. apply nats_upd; auto.
    + rewrite (proj1 (C40_copy_assign _ _ al n)). rewrite Hal. eexists _, _. split; [reflexivity|]. cbn [fst]. apply nats_upd; auto.
  - destruct (Nat.eqb_spec r s0) as [E0|N]; [discriminate|]. inversion Hi; subst. rewrite (proj2 (Nat.eqb_neq _ _) (not_eq_sym N)).
    destruct (nats_good _ _ _ s0 Hs) as (G & _ & V & D). eexists _, n. split; [reflexivity|].
    apply nats_upd; auto. apply nats_upd; auto. apply good_default.
  - destruct (Inv op (m r) (m s0) r m1 Hi) as [Hop ->].
    destruct (nats_good _ _ _ r Hs) as (Gr & _ & Vr & Dr). destruct (nats_good _ _ _ s0 Hs) as (Gt & _ & Vt & Dt).
    assert (adesc (s r) (operand s r s0) = BN_POS) as Da by (unfold operand; destruct (s0 =? r)%nat; auto).
    assert (good (base (eL E)) (match operand s r s0 with Other z => z | Self => s r end)) as Ga
      by (unfold operand; destruct (s0 =? r)%nat; auto).
    assert (value (base (eL E)) (adata (s r) (operand s r s0)) = m s0) as Va.
    { unfold operand. destruct (Nat.eqb_spec s0 r) as [->|]; cbn [adata]; auto. }
    destruct (nat_op E op (s r) (operand s r s0) (m r) (m s0) al n HD Hdbg Hal Dr Gr Vr Da Ga Va ltac:(lia) Hop) as (z & n' & Ez & Dz & Gz & Vz).
    unfold bind. rewrite Ez. eexists _, n'. split; [reflexivity|]. cbn [fst]. apply nats_upd; auto.
  - destruct (Inv op (m s0) (m t) r m1 Hi) as [Hop ->].
    destruct (nats_good _ _ _ s0 Hs) as (Gr & _ & Vr & Dr). destruct (nats_good _ _ _ t Hs) as (Gt & _ & Vt & Dt).
    destruct (nat_op E op (s s0) (Other (s t)) (m s0) (m t) al (S n) HD Hdbg Hal Dr Gr Vr Dt Gt Vt ltac:(lia) Hop) as (z & n' & Ez & Dz & Gz & Vz).
    assert (binary (compound E op) (s s0) (s t) al n = Ret z n') as Eb by (rewrite binary_eq, Hal, Ez; reflexivity).
    eexists _, n'. split; [apply (store_run _ _ _ _ _ _ _ Eb)|]. apply nats_upd; auto.
  - inversion Hi; subst. eexists _, n. split; [reflexivity|]. apply nats_upd; auto; apply good_default.
Qed.

(** The program computes the natural numbers the mathematical program computes: it returns normally (no
    exception, no undefined behaviour, no endless loop), for every allocator that does not fail. *)
Theorem C44_natural_programs : forall L p m m', can_double L = true -> nat_exec (base L) p m = Some m' ->
  exists enough : nat, forall fuel P keep al n s, (enough <= fuel)%nat -> (forall k, al k = true) ->
  holds_nats (base L) s m ->
  exists s' n', exec (mkEnv L false P fuel keep) p s al n = Ret s' n' /\ holds_nats (base L) s' m'.
Proof.
  intros L p. induction p as [|i p IH]; intros m m' HD Hp.
  - cbn [nat_exec] in Hp. inversion Hp; subst. exists 0%nat. intros. exists s, n. split; [reflexivity|assumption].
  - cbn [nat_exec] in Hp. destruct (nat_step (base L) i m) as [m1|] eqn:Ei; [|discriminate].
    destruct (IH m1 m' HD Hp) as [e2 K2]. exists (Nat.max (step_fuel i m) e2).
    intros fuel P keep al n s Hf Hal Hs.
    destruct (nat_step_run (mkEnv L false P fuel keep) i s m m1 al n HD eq_refl Hal ltac:(cbn [eFuel]; lia) Hs Ei) as (s1 & n1 & E1 & H1).
    destruct (K2 fuel P keep al n1 s1 ltac:(lia) Hal H1) as (s' & n' & E2 & H2).
    exists s', n'. split; [|exact H2]. cbn [exec]. unfold bind. rewrite E1. exact E2.
Qed.
Print Assumptions C44_natural_programs.

(** (12345 - 999) / 12 + 12345 = 13290: the mathematical program is defined and the real one agrees *)
Definition nat_program : list instr :=
  [INew 0 BN_POS [1; 2; 3; 4; 5]; INew 1 BN_POS [0; 9; 9; 9]; IBinary OSub 2 0 1; INew 1 BN_POS [1; 2];
   IAssign ODiv 2 1; IAssign OAdd 2 0; IAssign OSub 1 1].
Example C44_case :
  can_double base10 = true /\ holds_nats 10 fresh (fun _ => 0) /\
  (exists m', nat_exec 10 nat_program (fun _ => 0) = Some m' /\ m' 2%nat = 13290 /\ m' 1%nat = 0) /\
  match run (exec env10 nat_program fresh) with Ret s _ => data (s 2%nat) = [0; 9; 2; 3; 1] | _ => False end.
Proof.
  split; [reflexivity|]. split; [|split].
  - intros r. repeat split; try constructor. unfold canonical; cbn. discriminate.
  - eexists. split; [reflexivity|]. split; reflexivity.
  - vm_compute. reflexivity.
Qed.
