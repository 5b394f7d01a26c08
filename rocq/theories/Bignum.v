(** * class Bignum: include/bignum/bn_type.h, include/bignum/impl/bn_type_impl.h *)
From Verif Require Import Base Spec Limits Compare AddSub Division Fourier Multiplication.

Definition desc_eqb (a b : bn_desc_t) : bool :=
  match a, b with
  | BN_POS, BN_POS | BN_NEG, BN_NEG | BN_NAN, BN_NAN
  | BN_POS_INF, BN_POS_INF | BN_NEG_INF, BN_NEG_INF => true
  | _, _ => false
  end.

(** ** Construction, copy, move *)

(** bn_type_impl.h:51-52 with the member initialisers bn_type.h:103-104 *)
Definition bn_default : bignum := mkBN BN_POS [].

(** bn_type_impl.h:72-79: number of leading elements equal to SINGLE_BASE_MIN *)
Fixpoint leading_zeroes (L : limits) (l : list Z) : nat :=
  match l with
  | v :: r => if negb (v =? wrap (ws L) (bmin L)) then O else S (leading_zeroes L r)
  | [] => O
  end.

(** bn_type_impl.h:84-93: skip the leading zeroes, then write numData[--outIter] *)
Fixpoint ctor_loop (l : list Z) (lz : nat) (v : list Z) (oi : nat) : M (list Z) :=
  match l with
  | [] => ret v
  | x :: r =>
    match lz with
    | S k => ctor_loop r k v oi
    | O => match oi with
           | O => undef UB_index
           | S o => v <- vset v o x ;; ctor_loop r O v o
           end
    end
  end.

(** bn_type_impl.h:58-94: Bignum(desc, {...}) *)
Definition bn_make (L : limits) (d : bn_desc_t) (l : list Z) : M bignum :=
  match l with
  | [] => ret (mkBN d [])
  | _ => let lz := leading_zeroes L l in
         v <- vresize [] (length l - lz) 0 ;;
         v <- ctor_loop l lz v (length v) ;;
         ret (mkBN d v)
  end.

(** bn_type_impl.h:100-103 *)
Definition bn_copy (x : bignum) : M bignum := v <- vcopy (data x) ;; ret (mkBN (desc x) v).

(** bn_type_impl.h:109-114: returns (the new object, the source afterwards).  The vector move constructor
    leaves the source vector empty; the source's descriptor is not changed. *)
Definition bn_move_ctor (x : bignum) : bignum * bignum := (x, mkBN (desc x) []).

(** bn_type_impl.h:396-403: move assignment from another object; (this, num) afterwards.  The descriptor of
    num becomes BN_POS; std::vector move assignment with std::allocator leaves num's vector empty. *)
Definition bn_move_assign (num : bignum) : bignum * bignum := (num, mkBN BN_POS []).

(** bn_type_impl.h:396-403 on one object (x = std::move(x)): descriptor becomes BN_POS; what the standard
    vector holds after a self-move is unspecified, given here as the parameter [left_over]. *)
Definition bn_self_move_assign (left_over : list Z) (x : bignum) : bignum := mkBN BN_POS left_over.

(** ** Accessors *)

(** bn_type_impl.h:120-131 *)
Definition getData (x : bignum) : list Z := data x.
Definition getDescriptor (x : bignum) : bn_desc_t := desc x.

(** bn_type_impl.h:137-150 *)
Definition setDescriptor (x : bignum) (d : bn_desc_t) : bignum :=
  match d with
  | BN_NAN | BN_POS_INF | BN_NEG_INF => mkBN d []
  | _ => mkBN d (data x)
  end.

(** bn_type_impl.h:156-182 *)
Definition isPositive (x : bignum) : bool := desc_eqb (desc x) BN_POS || desc_eqb (desc x) BN_POS_INF.
Definition isNegative (x : bignum) : bool := desc_eqb (desc x) BN_NEG || desc_eqb (desc x) BN_NEG_INF.
Definition isInfinite (x : bignum) : bool := desc_eqb (desc x) BN_POS_INF || desc_eqb (desc x) BN_NEG_INF.
Definition isNan (x : bignum) : bool := desc_eqb (desc x) BN_NAN.

(** bn_type_impl.h:708-719 *)
Definition isComputable (d : bn_desc_t) : bool :=
  match d with BN_NAN | BN_POS_INF | BN_NEG_INF => false | _ => true end.

(** bn_type_impl.h:188-192 *)
Definition bn_resize (x : bignum) (n : nat) (d : Z) : M bignum :=
  v <- vresize (data x) n d ;; ret (mkBN (desc x) v).

(** bn_type_impl.h:198-201 *)
Definition bn_size (x : bignum) : nat := length (data x).

(** bn_type_impl.h:207-209 *)
Definition push_front (x : bignum) (d : Z) : M bignum :=
  v <- vinsert (data x) 0 d ;; ret (mkBN (desc x) v).
(** bn_type_impl.h:215-217 *)
Definition pop_front (x : bignum) : M bignum := v <- verase (data x) 0 ;; ret (mkBN (desc x) v).
(** bn_type_impl.h:223-225 *)
Definition push_back (x : bignum) (d : Z) : M bignum := v <- vpush (data x) d ;; ret (mkBN (desc x) v).
(** bn_type_impl.h:231-233 *)
Definition pop_back (x : bignum) : M bignum := v <- vpop (data x) ;; ret (mkBN (desc x) v).
(** bn_type_impl.h:239-243 *)
Definition push (x : bignum) (d : Z) (pos : nat) : M bignum :=
  v <- vinsert (data x) pos d ;; ret (mkBN (desc x) v).
(** bn_type_impl.h:249-251 *)
Definition pop (x : bignum) (pos : nat) : M bignum :=
  v <- verase (data x) pos ;; ret (mkBN (desc x) v).
(** bn_type_impl.h:257-260 *)
Definition clear (x : bignum) : bignum := mkBN BN_POS [].

(** bn_type_impl.h:267-270 and 277-280: BN_ASSERT throws BN_ERROR in every build (bn_except.h:55-57,
    src/bn_except.cpp:15-29) before the vector is accessed. *)
Definition subscript (x : bignum) (i : nat) : M Z :=
  (if (i <? length (data x))%nat then ret tt else throw ExBnError) ;;; vget (data x) i.

(** assignment through the reference returned by the non-const operator[] *)
Definition subscript_set (x : bignum) (i : nat) (d : Z) : M bignum :=
  (if (i <? length (data x))%nat then ret tt else throw ExBnError) ;;;
  v <- vset (data x) i d ;; ret (mkBN (desc x) v).

(** ** Comparison operators *)

(** bn_type_impl.h:286-291 *)
Definition op_eq (x y : bignum) : M bool :=
  if negb (desc_eqb (desc x) (desc y)) then ret false else abs_val_is_eq (data x) (data y).

(** bn_type_impl.h:297-302 *)
Definition op_ne (x y : bignum) : M bool :=
  if negb (desc_eqb (desc x) (desc y)) then ret true
  else r <- abs_val_is_eq (data x) (data y) ;; ret (negb r).

(** bn_type_impl.h:308-321 *)
Definition op_gt (x y : bignum) : M bool :=
  if desc_eqb (desc x) BN_POS && desc_eqb (desc y) BN_NEG then ret true
  else if desc_eqb (desc x) BN_NEG && desc_eqb (desc y) BN_POS then ret false
  else if desc_eqb (desc x) BN_NEG && desc_eqb (desc y) BN_NEG then abs_val_is_le (data x) (data y)
  else abs_val_is_gt (data x) (data y).

(** bn_type_impl.h:327-340 *)
Definition op_ge (x y : bignum) : M bool :=
  if desc_eqb (desc x) BN_POS && desc_eqb (desc y) BN_NEG then ret true
  else if desc_eqb (desc x) BN_NEG && desc_eqb (desc y) BN_POS then ret false
  else if desc_eqb (desc x) BN_NEG && desc_eqb (desc y) BN_NEG then abs_val_is_lt (data x) (data y)
  else abs_val_is_ge (data x) (data y).

(** bn_type_impl.h:346-359 *)
Definition op_lt (x y : bignum) : M bool :=
  if desc_eqb (desc x) BN_POS && desc_eqb (desc y) BN_NEG then ret false
  else if desc_eqb (desc x) BN_NEG && desc_eqb (desc y) BN_POS then ret true
  else if desc_eqb (desc x) BN_NEG && desc_eqb (desc y) BN_NEG then abs_val_is_gt (data x) (data y)
  else abs_val_is_lt (data x) (data y).

(** bn_type_impl.h:365-378 *)
Definition op_le (x y : bignum) : M bool :=
  if desc_eqb (desc x) BN_POS && desc_eqb (desc y) BN_NEG then ret false
  else if desc_eqb (desc x) BN_NEG && desc_eqb (desc y) BN_POS then ret true
  else if desc_eqb (desc x) BN_NEG && desc_eqb (desc y) BN_NEG then abs_val_is_gt (data x) (data y)
  else abs_val_is_le (data x) (data y).

(** ** Compound assignment

    The parameter is a reference that may be *this ([Self]). *)
Inductive arg := Other (num : bignum) | Self.
Definition adesc (this : bignum) (y : arg) : bn_desc_t := match y with Other n => desc n | Self => desc this end.
Definition adata (this : bignum) (y : arg) : list Z := match y with Other n => data n | Self => data this end.
Definition aview (y : arg) : view := match y with Other n => other (data n) | Self => same end.

(** The result of a compound assignment: *this afterwards and the exception that left the operator, if any. *)
Definition assigned := (bignum * option exn)%type.

(** bn_type_impl.h:385-389: copy assignment.  The descriptor is assigned first, so if the vector assignment
    then fails, *this keeps its digits (std::vector allocates before it changes anything) but has the
    descriptor of the other object.  Assigning a vector to itself does nothing. *)
Definition bn_copy_assign (this : bignum) (y : arg) : M assigned :=
  match y with
  | Self => ret (this, None)
  | Other num => fun al n =>
      match vcopy (data num) al n with
      | Ret v n' => Ret (mkBN (desc num) v, None) n'
      | Throw e n' => Ret (mkBN (desc num) (data this), Some e) n'
      | Undef u => Undef u
      | NoFuel => NoFuel
      end
  end.

(** try { body } catch (const std::exception& e) { ...; throw e; }  [on_fail] is *this after the handler. *)
Definition guarded (body : M bignum) (on_fail : bignum) : M assigned :=
  fun al n => match body al n with
              | Ret b n' => Ret (b, None) n'
              | Throw ExBnError n' => Throw ExBnError n'
              | Throw _ n' => Ret (on_fail, Some ExStd) n'
              | Undef u => Undef u
              | NoFuel => NoFuel
              end.

(** bn_type_impl.h:506-513, 575-582, 622-629, 692-699: what the handlers leave in *this *)
Definition failed (num_desc : bn_desc_t) : bignum :=
  mkBN (if desc_eqb num_desc BN_POS then BN_POS_INF else BN_NEG_INF) [].

(** bn_type_impl.h:454-516 *)
Definition op_add_assign (L : limits) (dbg : bool) (this : bignum) (y : arg) : M assigned :=
  if negb (isComputable (desc this)) then ret (mkBN (adesc this y) [], None)
  else guarded
    (if desc_eqb (desc this) BN_POS && desc_eqb (adesc this y) BN_POS then
       v <- abs_val_add L (data this) (aview y) ;; ret (mkBN (desc this) v)
     else if desc_eqb (desc this) BN_POS && desc_eqb (adesc this y) BN_NEG then
       c <- abs_val_is_ge (data this) (adata this y) ;;
       if (c : bool) then v <- abs_val_sub L dbg (data this) (aview y) ;; ret (mkBN (desc this) v)
       else t <- vcopy (adata this y) ;;
            v <- abs_val_sub L dbg t (other (data this)) ;; ret (mkBN BN_NEG v)
     else if desc_eqb (desc this) BN_NEG && desc_eqb (adesc this y) BN_POS then
       c <- abs_val_is_ge (data this) (adata this y) ;;
       if (c : bool) then v <- abs_val_sub L dbg (data this) (aview y) ;; ret (mkBN (desc this) v)
       else t <- vcopy (adata this y) ;;
            v <- abs_val_sub L dbg t (other (data this)) ;; ret (mkBN BN_POS v)
     else
       v <- abs_val_add L (data this) (aview y) ;; ret (mkBN (desc this) v))
    (failed (adesc this y)).

(** bn_type_impl.h:523-585 *)
Definition op_sub_assign (L : limits) (dbg : bool) (this : bignum) (y : arg) : M assigned :=
  if negb (isComputable (desc this)) then ret (mkBN (adesc this y) [], None)
  else guarded
    (if desc_eqb (desc this) BN_POS && desc_eqb (adesc this y) BN_POS then
       c <- abs_val_is_ge (data this) (adata this y) ;;
       if (c : bool) then v <- abs_val_sub L dbg (data this) (aview y) ;; ret (mkBN (desc this) v)
       else t <- vcopy (adata this y) ;;
            v <- abs_val_sub L dbg t (other (data this)) ;; ret (mkBN BN_NEG v)
     else if (desc_eqb (desc this) BN_POS && desc_eqb (adesc this y) BN_NEG)
          || (desc_eqb (desc this) BN_NEG && desc_eqb (adesc this y) BN_POS) then
       (* lines 549-559: the two branches have the same body *)
       c <- abs_val_is_gt (data this) (adata this y) ;;
       t <- vcopy (if (c : bool) then data this else adata this y) ;;
       v <- abs_val_sub L dbg t (other (adata this y)) ;; ret (mkBN (desc this) v)
     else
       c <- abs_val_is_ge (data this) (adata this y) ;;
       if (c : bool) then v <- abs_val_sub L dbg (data this) (aview y) ;; ret (mkBN (desc this) v)
       else t <- vcopy (adata this y) ;;
            v <- abs_val_sub L dbg t (other (data this)) ;; ret (mkBN BN_POS v))
    (failed (adesc this y)).

(** bn_type_impl.h:604-615 and 651-662: the sign of a product or quotient *)
Definition product_desc (d1 d2 : bn_desc_t) : bn_desc_t :=
  if desc_eqb d1 BN_POS && desc_eqb d2 BN_NEG then BN_NEG
  else if desc_eqb d1 BN_NEG && desc_eqb d2 BN_NEG then BN_POS
  else if desc_eqb d1 BN_NEG && desc_eqb d2 BN_POS then BN_NEG
  else BN_POS.

(** bn_type_impl.h:592-632 *)
Definition op_mul_assign (L : limits) (P : flops) (fuel : nat) (this : bignum) (y : arg) : M assigned :=
  if negb (isComputable (desc this)) then ret (mkBN (adesc this y) [], None)
  else guarded
    (v <- mul_strassen L P fuel (data this) (adata this y) ;;
     ret (mkBN (product_desc (desc this) (adesc this y)) v))
    (failed (adesc this y)).

(** bn_type_impl.h:639-702.  After line 662 the descriptor of *this is already the quotient's, which is what
    the handler reads through num if the operand is *this. *)
Definition op_div_assign (L : limits) (dbg : bool) (fuel : nat) (this : bignum) (y : arg) : M assigned :=
  if negb (isComputable (desc this)) then ret (mkBN (adesc this y) [], None)
  else
    let d := product_desc (desc this) (adesc this y) in
    let nd := match y with Other n => desc n | Self => d end in
    let num := adata this y in
    if match num with [x] => x =? wrap (wd L) (bmin L) | _ => false end then
      ret (mkBN (if desc_eqb d BN_NEG then BN_NEG_INF else BN_POS_INF) [], None)
    else if match num with [x] => x =? wrap (ws L) 1 | _ => false end then
      ret (mkBN d (data this), None)
    else if match data this with [] => true | [x] => x =? wrap (wd L) (bmin L) | _ => false end then
      ret (mkBN d (data this), None)
    else guarded
      (c <- abs_val_is_gt (data this) num ;;
       if (c : bool) then v <- abs_val_div L dbg fuel (data this) num ;; ret (mkBN d v)
       else v <- vcopy [0] ;; ret (mkBN d v))
      (failed nd).

(** ** Binary operators: bn_type_impl.h:410-447: copy *this, apply the compound form, return the copy.
    (The parameter may be *this, but it is never the copy, hence [Other].) *)
Definition binary (f : bignum -> arg -> M assigned) (x y : bignum) : M bignum :=
  r <- bn_copy x ;;
  s <- f r (Other y) ;;
  match snd s with None => ret (fst s) | Some e => throw e end.
Definition op_add (L : limits) (dbg : bool) : bignum -> bignum -> M bignum := binary (op_add_assign L dbg).
Definition op_sub (L : limits) (dbg : bool) : bignum -> bignum -> M bignum := binary (op_sub_assign L dbg).
Definition op_mul (L : limits) (P : flops) (fuel : nat) : bignum -> bignum -> M bignum :=
  binary (op_mul_assign L P fuel).
Definition op_div (L : limits) (dbg : bool) (fuel : nat) : bignum -> bignum -> M bignum :=
  binary (op_div_assign L dbg fuel).
