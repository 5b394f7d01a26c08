(** * Property C52: the client tests/integer_test.cpp *)
From Coq Require Import String DecimalString.
From Verif Require Import Base Limits BNInt IntTest Outcome Wp PropInt.
Local Open Scope string_scope.

(** what the program should print, in terms of integers *)
Definition truth (b : bool) : Z := if b then 1 else 0.
(** 7 + 3 = 10 is printed as the numerals and signs without blanks, and a line feed *)
Definition numeral (z : Z) : string := NilZero.string_of_uint (N.to_uint (Z.to_N z)).
Definition row (x : Z) (op : string) (y z : Z) : string :=
  String.concat "" [numeral x; op; numeral y; "="; numeral z; String (Ascii.ascii_of_nat 10) ""].
Definition table (x y : Z) : string :=
  row x "+" y ((x + y) mod 2 ^ 32) ++ row x "-" y ((x - y) mod 2 ^ 32) ++ row x "*" y ((x * y) mod 2 ^ 32) ++
  row x "/" y (x / y) ++ row x "%" y (x mod y) ++
  row x "&" y (Z.land x y) ++ row x "|" y (Z.lor x y) ++ row x "^" y (Z.lxor x y) ++
  row x "<<" y ((x * 2 ^ y) mod 2 ^ 32) ++ row x ">>" y (x / 2 ^ y) ++
  row x ">" y (truth (y <? x)%Z) ++ row x "<" y (truth (x <? y)%Z) ++
  row x ">=" y (truth (y <=? x)%Z) ++ row x "<=" y (truth (x <=? y)%Z) ++
  row x "==" y (truth (x =? y)%Z) ++ row x "!=" y (truth (negb (x =? y)%Z)).

Lemma append_nil s : s ++ "" = s.
Proof. induction s as [|c s IH]; [reflexivity|]. cbn. rewrite IH. reflexivity. Qed.
Lemma append_assoc s t r : (s ++ t) ++ r = s ++ t ++ r.
Proof. induction s as [|c s IH]; [reflexivity|]. cbn. rewrite IH. reflexivity. Qed.

Lemma sequence_app l r al n : sequence (l ++ r)%list al n =
  match sequence l al n with
  | Ret s k => match sequence r al k with Ret t m => Ret (s ++ t) m | Throw e m => Throw e m | Undef u => Undef u | NoFuel => NoFuel end
  | Throw e k => Throw e k | Undef u => Undef u | NoFuel => NoFuel end.
Proof.
  revert n. induction l as [|m l IH]; intros n.
  - cbn. destruct (sequence r al n); reflexivity.
  - cbn [app sequence]. unfold bind. destruct (m al n) as [s k|e k|u|]; try reflexivity.
    rewrite IH. destruct (sequence l al k) as [s' k'|e k'|u|]; try reflexivity.
    unfold ret. destruct (sequence r al k') as [t m'|e m'|u|]; try reflexivity. rewrite append_assoc. reflexivity.
Qed.

Lemma bitwise_exact x y (f : Z -> Z -> Z) : 0 <= f x y < 2 ^ 32 -> forall al n, arith 32 (f x y) al n = Ret (f x y) n.
Proof. intros H al n. unfold arith. cbn [Z.ltb]. change (32 <? 32)%Z with false. cbv iota. unfold ret, wrap. rewrite Z.mod_small by lia. reflexivity. Qed.

Lemma half x y : fits 32 x -> fits 32 y ->
  (0 < y < 32 -> forall al n, sequence (all_operators x y) al n = Ret (table x y) n) /\
  (y = 0 -> is_undefined (sequence (all_operators x y)) UB_div_zero) /\
  (32 <= y -> is_undefined (sequence (all_operators x y)) UB_shift).
Proof.
  intros Fx Fy. assert (width 32) as W by (unfold width; auto).
  destruct (C33_sums 32 x y W Fx Fy) as (Ha & Hs & _). pose proof (proj1 (C33_product 32 x y W Fx Fy) ltac:(left; lia)) as Hm.
  destruct (C33_quotient 32 x y W Fx Fy) as [Hq Hq0].
  destruct (C33_shift_right 32 x y W Fx (proj1 Fy)) as [Hr Hr0]. destruct (C33_shift_left 32 x y W Fx (proj1 Fy)) as [Hl Hl0].
  change (Z.max 32 32) with 32 in Hr, Hr0, Hl, Hl0.
  assert (forall z, 0 <= z -> (forall i, 32 <= i -> Z.testbit z i = false) -> 0 <= z < 2 ^ 32) as Bd.
  { intros z Hz Hb. split; [exact Hz|]. apply bit_bound; [lia|exact Hz|exact Hb]. }
  assert (forall i, 32 <= i -> Z.testbit x i = false) as Bx by (intros i Hi; apply (high_bits 32); [exact Fx|lia]).
  assert (forall i, 32 <= i -> Z.testbit y i = false) as By by (intros i Hi; apply (high_bits 32); [exact Fy|lia]).
  assert (0 <= x /\ 0 <= y) as [Px Py] by (split; [apply Fx|apply Fy]).
  assert (forall al n, bni_and 32 x y al n = Ret (Z.land x y) n) as Hand.
  { apply (bitwise_exact x y Z.land). apply Bd; [apply Z.land_nonneg; auto|]. intros i Hi. rewrite Z.land_spec, Bx by exact Hi. reflexivity. }
  assert (forall al n, bni_or 32 x y al n = Ret (Z.lor x y) n) as Hor.
  { apply (bitwise_exact x y Z.lor). apply Bd; [apply Z.lor_nonneg; auto|]. intros i Hi. rewrite Z.lor_spec, Bx, By by exact Hi. reflexivity. }
  assert (forall al n, bni_xor 32 x y al n = Ret (Z.lxor x y) n) as Hxor.
  { apply (bitwise_exact x y Z.lxor). apply Bd; [apply Z.lxor_nonneg; tauto|]. intros i Hi. rewrite Z.lxor_spec, Bx, By by exact Hi. reflexivity. }
  unfold is_undefined, all_operators, print_test, print_bool, sequence, table, truth, bni_gt, bni_lt, bni_ge, bni_le, bni_eq, bni_ne.
  split; [|split].
  - intros Hy al n. destruct (Hq ltac:(lia)) as [Hd Hmod]. specialize (Hr ltac:(lia)). specialize (Hl ltac:(lia) ltac:(lia)).
    unfold bind, ret. rewrite (Ha al n), (Hs al n), (Hm al n), Hd, Hmod, Hand, Hor, Hxor, (Hl al n), Hr, append_nil. reflexivity.
  - intros Hy al n. destruct (Hq0 Hy) as [Hd _]. unfold bind, ret. rewrite (Ha al n), (Hs al n), (Hm al n), (Hd al n). reflexivity.
  - intros Hy al n. destruct (Hq ltac:(lia)) as [Hd Hmod]. specialize (Hl0 ltac:(lia)).
    unfold bind, ret. rewrite (Ha al n), (Hs al n), (Hm al n), Hd, Hmod, Hand, Hor, Hxor, (Hl0 al n). reflexivity.
Qed.

(** ** C52 *)
(** Both numbers in 1..31: the 32 lines are as they should be. *)
Theorem C52_integer_test : forall a b, 0 < a < 32 -> 0 < b < 32 -> forall al n,
  integer_test a b al n = Ret (table a b ++ table b a) n.
Proof.
  intros a b Ha Hb al n. assert (fits 32 a /\ fits 32 b) as [Fa Fb] by (unfold fits; lia).
  unfold integer_test. rewrite sequence_app, (proj1 (half a b Fa Fb) Hb), (proj1 (half b a Fb Fa) Ha). reflexivity.
Qed.
Print Assumptions C52_integer_test.

(** All other numbers: undefined behaviour, by a division by zero or by a shift beyond the width of the type.  The
    program draws both from 0..100 (integer_test.cpp:33). *)
Theorem C52_integer_test_undefined : forall a b, fits 32 a -> fits 32 b -> ~ (0 < a < 32 /\ 0 < b < 32) ->
  is_undefined (integer_test a b) UB_div_zero \/ is_undefined (integer_test a b) UB_shift.
Proof.
  intros a b Fa Fb H. destruct (half a b Fa Fb) as (R1 & Z1 & S1). destruct (half b a Fb Fa) as (_ & Z2 & S2).
  unfold integer_test, is_undefined in *.
  destruct (Z.eq_dec b 0) as [->|Nb]; [left; intros al n; rewrite sequence_app, (Z1 eq_refl); reflexivity|].
  destruct (Z.le_gt_cases 32 b) as [|Hb]; [right; intros al n; rewrite sequence_app, S1 by lia; reflexivity|].
  assert (0 < b < 32) as Hb' by (unfold fits in *; lia).
  destruct (Z.eq_dec a 0) as [->|Na]; [left; intros al n; rewrite sequence_app, (R1 Hb'), (Z2 eq_refl); reflexivity|].
  right. intros al n. rewrite sequence_app, (R1 Hb'), S2 by (unfold fits in *; lia). reflexivity.
Qed.
Print Assumptions C52_integer_test_undefined.

(** the claim of the program itself, that it can print its table for every draw *)
Definition C52_full_statement : Prop := forall a b, 0 <= a <= 100 -> 0 <= b <= 100 -> exists s n, run (integer_test a b) = Ret s n.
Theorem C52_refuted : ~ C52_full_statement.
Proof. intros H. destruct (H 7 0 ltac:(lia) ltac:(lia)) as (s & n & E). vm_compute in E. discriminate. Qed.
Print Assumptions C52_refuted.

Example C52_case : exists t, run (integer_test 7 3) =
  Ret ("7+3=10" ++ newline ++ "7-3=4" ++ newline ++ "7*3=21" ++ newline ++ "7/3=2" ++ newline ++ "7%3=1" ++ newline ++ t) 0%nat.
Proof. eexists. unfold run. rewrite C52_integer_test by lia. cbn [table row String.concat append]. reflexivity. Qed.
Example C52_undefined_cases : run (integer_test 100 0) = Undef UB_div_zero /\ run (integer_test 7 40) = Undef UB_shift /\
  run (integer_test 0 7) = Undef UB_div_zero /\ run (integer_test 40 7) = Undef UB_shift.
Proof. repeat split; vm_compute; reflexivity. Qed.
