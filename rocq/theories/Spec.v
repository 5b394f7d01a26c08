(** * Specification vocabulary.

    Only what is needed to say, in mathematical terms, what a digit vector and a Bignum mean.  None of this
    refers to the model of the code. *)
From Coq Require Import ZArith List.
Import ListNotations.
Open Scope Z_scope.

(** The number denoted by digits [d_0; d_1; ...] (least significant first) in base [B]: sum d_i B^i. *)
Fixpoint value (B : Z) (ds : list Z) : Z :=
  match ds with
  | [] => 0
  | d :: r => d + B * value B r
  end.

(** Every digit is a base-[B] digit. *)
Definition digits_ok (B : Z) (ds : list Z) : Prop := Forall (fun d => 0 <= d < B) ds.

(** No high-order zero digit (the digit-less vector qualifies). *)
Definition canonical (ds : list Z) : Prop := last ds 1 <> 0.

(** Canonical, or the vector consisting of the single digit 0. *)
Definition weak_canonical (ds : list Z) : Prop := canonical ds \/ ds = [0].

(** Descriptors: include/bignum/bn_type.h:30-36. *)
Inductive bn_desc_t := BN_POS | BN_NEG | BN_NAN | BN_POS_INF | BN_NEG_INF.

(** A Bignum object: include/bignum/bn_type.h:103-104 (descriptor, numData). *)
Record bignum := mkBN { desc : bn_desc_t; data : list Z }.

Definition finite (x : bignum) : Prop := desc x = BN_POS \/ desc x = BN_NEG.

(** The integer a finite Bignum denotes. *)
Definition signed_value (B : Z) (x : bignum) : Z :=
  match desc x with BN_NEG => - value B (data x) | _ => value B (data x) end.

(** A Bignum a user can be expected to hold: finite, digits in range, no superfluous zeros. *)
Definition good (B : Z) (x : bignum) : Prop :=
  finite x /\ digits_ok B (data x) /\ weak_canonical (data x).

(** ** Debug builds *)

(** [v] and [w <= v] have the same number of digits, and some digit of [w] exceeds that of [v] *)
Definition has_borrow (B v w : Z) : Prop :=
  exists n i, 0 <= n /\ 0 <= i /\ B ^ n <= w /\ v < B ^ (n + 1) /\ (v / B ^ i) mod B < (w / B ^ i) mod B.

(** one of the subtractions of the binary division of [v] by [y] is of that kind *)
Inductive rejected (B y : Z) : Z -> Prop :=
| rejected_now v k : 0 <= k -> y * 2 ^ k <= v < y * 2 ^ (k + 1) -> has_borrow B v (y * 2 ^ k) -> rejected B y v
| rejected_later v k : 0 <= k -> y * 2 ^ k <= v < y * 2 ^ (k + 1) -> rejected B y (v - y * 2 ^ k) -> rejected B y v.
