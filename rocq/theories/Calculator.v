(** * A calculator with the arithmetic of the library

    What Bignum computes, without digits, buffers, floating-point numbers or memory: a number is a descriptor and a magnitude, a
    magnitude is nothing (no digits) or an integer.  The only remains of the digits are the comparison [above] (bn_compare_impl.h, the
    comparison abs_val_is_gt looks for any greater digit) and the subtraction of numbers of different signs, which wraps.
    This file is specification: it is compared with the model of the code in PropCalculator.v.  It describes the release build with
    numbers that are written without high-order zeros, when no request for memory fails. *)
From Coq Require Import ZArith List Bool Arith.
From Verif Require Import Base Spec Limits Bignum Machine While.
Import ListNotations.
Open Scope Z_scope.

Definition mag := option Z.
Record cnum := mkC { csign : bn_desc_t; cmag : mag }.

Definition amount (a : mag) : Z := match a with None => 0 | Some m => m end.

(** nothing comes before zero *)
Definition at_least (a b : mag) : bool :=
  match a, b with
  | _, None => true
  | None, Some _ => false
  | Some p, Some q => q <=? p
  end.

(** results of subtractions and products: a zero has no digits *)
Definition packed (m : Z) : mag := if m =? 0 then None else Some m.

(** ** Digits, least first *)
Fixpoint digits_from (B : Z) (fuel : nat) (m : Z) : list Z :=
  match fuel with
  | O => []
  | S f => m mod B :: (if m / B =? 0 then [] else digits_from B f (m / B))
  end.
Definition digits_in (B m : Z) : list Z := digits_from B (S (Z.to_nat (Z.log2 m))) m.
Definition digits (B : Z) (a : mag) : list Z := match a with None => [] | Some m => digits_in B m end.

(** more digits, or as many and one of them greater *)
Definition above (B : Z) (a b : mag) : bool :=
  let p := digits B a in let q := digits B b in
  (length q <? length p)%nat || (length q =? length p)%nat && existsb (fun d => snd d <? fst d) (combine p q).

(** ** Operations *)
Inductive outcome (A : Type) := Is (a : A) | Crash | Endless | Unknown.
Arguments Is {A} a. Arguments Crash {A}. Arguments Endless {A}. Arguments Unknown {A}.
Definition andthen {A C} (o : outcome A) (f : A -> outcome C) : outcome C :=
  match o with Is a => f a | Crash => Crash | Endless => Endless | Unknown => Unknown end.

Definition opposites (x y : cnum) : bool :=
  match csign x, csign y with BN_POS, BN_NEG | BN_NEG, BN_POS => true | _, _ => false end.
Definition number (d : bn_desc_t) : bool := match d with BN_POS | BN_NEG => true | _ => false end.
Definition product_sign (x y : cnum) : bn_desc_t := if opposites x y then BN_NEG else BN_POS.

(** the greater less the smaller; with the sign [d] if x is the smaller *)
Definition apart (x y : cnum) (d : bn_desc_t) : outcome cnum :=
  match cmag x, cmag y with
  | None, None => Crash
  | a, b => Is (if at_least a b then mkC (csign x) (packed (amount a - amount b)) else mkC d (packed (amount b - amount a)))
  end.

Definition plus (x y : cnum) : outcome cnum :=
  if opposites x y then apart x y (csign y) else Is (mkC (csign x) (Some (amount (cmag x) + amount (cmag y)))).

(** subtraction of numbers of different signs: zero, or the difference of the magnitudes in as many digits as x has *)
Definition wrapping (B : Z) (x y : cnum) : outcome cnum :=
  match cmag x, cmag y with
  | None, None => Crash
  | a, b => Is (mkC (csign x) (if above B a b then packed ((amount a - amount b) mod B ^ Z.of_nat (length (digits B a))) else None))
  end.
Definition minus (B : Z) (x y : cnum) : outcome cnum :=
  if opposites x y then wrapping B x y
  else apart x y (match csign x, csign y with BN_POS, BN_POS => BN_NEG | _, _ => BN_POS end).

(** a product of at most [N] digits in all, the shorter factor of at most [m] *)
Definition fits (B N m : Z) (a b : mag) : bool :=
  let p := length (digits B a) in let q := length (digits B b) in
  (Z.of_nat (p + q) <=? N) && (Z.of_nat (Nat.min p q) <=? m).
Definition times (B N m : Z) (x y : cnum) : outcome cnum :=
  match cmag x, cmag y with
  | None, None => Endless
  | a, b => if fits B N m a b then Is (mkC (product_sign x y) (packed (amount a * amount b))) else Unknown
  end.

Definition over (x y : cnum) : outcome cnum :=
  let s := product_sign x y in let a := amount (cmag x) in
  match cmag y with
  | Some 0 => Is (mkC (match s with BN_NEG => BN_NEG_INF | _ => BN_POS_INF end) None)
  | Some 1 => Is (mkC s (cmag x))
  | b => if a =? 0 then Is (mkC s (cmag x))
         else match b with
              | None => Endless
              | Some q => Is (mkC s (Some (if a =? q then 0 else a / q)))
              end
  end.

Definition calc (B N m : Z) (op : arith_op) (x y : cnum) : outcome cnum :=
  if number (csign x) then
    match op with OAdd => plus x y | OSub => minus B x y | OMul => times B N m x y | ODiv => over x y end
  else Is (mkC (csign y) None).

(** ** Comparisons *)
Definition same_mag (a b : mag) : bool := match a, b with None, None => true | Some p, Some q => p =? q | _, _ => false end.
Definition ask (B : Z) (c : comparison) (x y : cnum) : bool :=
  let a := cmag x in let b := cmag y in
  let same := desc_eqb (csign x) (csign y) && same_mag a b in
  match c, csign x, csign y with
  | CEq, _, _ => same
  | CNe, _, _ => negb same
  | (CGt | CGe), BN_POS, BN_NEG => true
  | (CGt | CGe), BN_NEG, BN_POS => false
  | (CLt | CLe), BN_POS, BN_NEG => false
  | (CLt | CLe), BN_NEG, BN_POS => true
  | CGt, BN_NEG, BN_NEG => at_least b a
  | CGt, _, _ => above B a b
  | CGe, BN_NEG, BN_NEG => above B b a
  | CGe, _, _ => at_least a b
  | CLt, BN_NEG, BN_NEG => above B a b
  | CLt, _, _ => above B b a
  | CLe, BN_NEG, BN_NEG => above B a b
  | CLe, _, _ => at_least b a
  end.

(** ** Statements and programs *)
Definition cstate := nat -> cnum.
Definition cset (s : cstate) (r : nat) (x : cnum) : cstate := fun i => if (i =? r)%nat then x else s i.

(** digits as they are written, most significant first *)
Definition reading (B : Z) (l : list Z) : Z := fold_left (fun a d => a * B + d) l 0.
Definition digit_range (B d : Z) : bool := (0 <=? d) && (d <? B).

Definition cstep (B N m : Z) (i : instr) (s : cstate) : outcome cstate :=
  match i with
  | INew r d l => if forallb (digit_range B) l then Is (cset s r (mkC d (packed (reading B l)))) else Unknown
  | ICopy r t => Is (cset s r (s t))
  | IMove r t => if (t =? r)%nat then Unknown else Is (cset (cset s t (mkC BN_POS None)) r (s t))
  | IAssign op r t => andthen (calc B N m op (s r) (s t)) (fun z => Is (cset s r z))
  | IBinary op r t u => andthen (calc B N m op (s t) (s u)) (fun z => Is (cset s r z))
  | ISetDesc r d => Is (cset s r (mkC d (if number d then cmag (s r) else None)))
  | IClear r => Is (cset s r (mkC BN_POS None))
  | IPushFront r d =>       (* a digit more at the low end *)
      match cmag (s r) with
      | Some 0 => Unknown
      | _ => if digit_range B d then Is (cset s r (mkC (csign (s r)) (Some (amount (cmag (s r)) * B + d)))) else Unknown
      end
  | IPopFront r =>          (* a digit less at the low end *)
      match cmag (s r) with
      | None => Crash
      | Some a => Is (cset s r (mkC (csign (s r)) (packed (a / B))))
      end
  | _ => Unknown
  end.

(** [fuel] bounds the nesting depth, as in [srun] *)
Fixpoint crun (B N m : Z) (fuel : nat) (p : stmt) (s : cstate) : outcome cstate :=
  match fuel with
  | O => Endless
  | S f =>
    match p with
    | Do i => cstep B N m i s
    | Seq a b => andthen (crun B N m f a s) (crun B N m f b)
    | If c x y a b => if ask B c (s x) (s y) then crun B N m f a s else crun B N m f b s
    | While c x y a =>
        if ask B c (s x) (s y) then andthen (crun B N m f a s) (crun B N m f (While c x y a)) else Is s
    end
  end.
