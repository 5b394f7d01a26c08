(** * Numbers with the capacities of their vectors (model)

    Base.v lets every growth, copy or construction of a vector be a point where the allocator may refuse.  Here a vector has a
    capacity besides its elements, and asks for memory only when the elements do not fit:

    - push_back, insert and resize within the capacity ask for nothing; beyond it they ask once, and the new capacity is
      [grow size more], a parameter (what the standard library chooses);
    - a copy of a non-empty vector asks once and has a capacity equal to its size; a copy of an empty one asks for nothing;
    - copy assignment asks only if the capacity of the target is too small, and keeps that capacity otherwise;
    - clear, pop_back, erase and a smaller resize keep the capacity; a move takes the vector with its capacity and leaves an
      empty vector of capacity 0.

    The functions are those of AddSub.v, Division.v, Bignum.v, Machine.v, While.v and Strict.v, with such vectors. *)
From Verif Require Import Base Spec Limits Compare AddSub Division Fourier Multiplication Bignum Machine While Strict MulMemory.

Record vec := mkVec { items : list Z; room : nat }.
Record obj := mkObj { odesc : bn_desc_t; ovec : vec }.

(** what the model without capacities knows of an object *)
Definition bare (x : obj) : bignum := mkBN (odesc x) (items (ovec x)).

Definition emptied (v : vec) : vec := mkVec [] (room v).   (* clear *)
Definition nothing : vec := mkVec [] 0.                    (* default-constructed or moved from *)

Section Capacity.
Context (grow : nat -> nat -> nat).

(** ** std::vector *)

Definition cpush (v : vec) (d : Z) : M vec :=
  if (length (items v) <? room v)%nat then ret (mkVec (items v ++ [d]) (room v))
  else alloc ;;; ret (mkVec (items v ++ [d]) (grow (length (items v)) 1)).

Definition cinsert (v : vec) (i : nat) (d : Z) : M vec :=
  if (i <=? length (items v))%nat then
    let w := firstn i (items v) ++ d :: skipn i (items v) in
    if (length (items v) <? room v)%nat then ret (mkVec w (room v))
    else alloc ;;; ret (mkVec w (grow (length (items v)) 1))
  else undef UB_iterator.

Definition cresize (v : vec) (n : nat) (d : Z) : M vec :=
  let w := firstn n (items v) ++ repeat d (n - length (items v)) in
  if (n <=? room v)%nat then ret (mkVec w (room v))
  else alloc ;;; ret (mkVec w (grow (length (items v)) (n - length (items v)))).

Definition ccopy (l : list Z) : M vec := obtain (length l) ;;; ret (mkVec l (length l)).

Definition cassign (old : vec) (l : list Z) : M vec :=
  if (length l <=? room old)%nat then ret (mkVec l (room old)) else alloc ;;; ret (mkVec l (length l)).

(** ** Magnitudes *)

(** bn_addition_impl.h:24-53, as [add_loop].  The vector so far is also given if a push_back throws. *)
Fixpoint cadd_loop (L : limits) (inv : view) (fuel : nat) (out : vec) (oi ii : nat) (rem : Z) : M (vec * option exn) :=
  match fuel with
  | O => nofuel
  | S f =>
    p <- (if (oi =? length (items out))%nat then attempt (cpush out 0) else ret (inl out)) ;;
    match p with
    | inr e => ret (out, Some e)
    | inl out =>
      inDigit <- (if (ii <? length (inv (items out)))%nat then vget (inv (items out)) ii else ret 0) ;;
      o <- vget (items out) oi ;;
      let outDigit := wrap (wd L) (o + inDigit + rem) in
      dr <- (if bmax L <? outDigit then
               (if wrap (wd L) (bmax L + 1) =? 0 then undef UB_div_zero
                else ret (wrap (ws L) (outDigit mod wrap (wd L) (bmax L + 1)), 1))
             else ret (wrap (ws L) outDigit, 0)) ;;
      w <- vset (items out) oi (fst dr) ;;
      if ((S oi =? length w)%nat && (length (inv w) <=? S ii)%nat && (snd dr =? 0))
      then ret (mkVec w (room out), None)
      else cadd_loop L inv f (mkVec w (room out)) (S oi) (S ii) (snd dr)
    end
  end.

(** bn_addition_impl.h:8-54 *)
Definition cadd (L : limits) (out : vec) (inv : view) : M (vec * option exn) :=
  cadd_loop L inv (3 + length (items out) + length (inv (items out))) out 0 0 0.

(** bn_subtraction_impl.h:14-72: digits are overwritten and popped in place *)
Definition csub (L : limits) (dbg : bool) (out : vec) (inv : view) : M vec :=
  w <- abs_val_sub L dbg (items out) inv ;; ret (mkVec w (room out)).

(** bn_division_impl.h:20-43 *)
Definition cshift (L : limits) (v : vec) : M vec :=
  match items v with
  | [] => ret v
  | _ => r <- shl_loop L (length (items v)) (items v) 0 0 ;;
         let w := mkVec (fst r) (room v) in
         if snd r =? 0 then ret w else cpush w (wrap (ws L) (bmin L + 1))
  end.

(** bn_division_impl.h:55-61; line 57 is a copy assignment *)
Fixpoint cdiv_inner (L : limits) (fuel : nat) (dividend : list Z) (bsrch0 bsrch1 q : vec) : M (vec * vec) :=
  match fuel with
  | O => nofuel
  | S f =>
    c <- abs_val_is_ge dividend (items bsrch1) ;;
    if (c : bool) then
      bsrch0 <- cassign bsrch0 (items bsrch1) ;;
      bsrch1 <- cshift L bsrch1 ;;
      q <- cshift L q ;;
      cdiv_inner L f dividend bsrch0 bsrch1 q
    else ret (bsrch0, q)
  end.

(** an addition to a local vector: the exception goes on *)
Definition cadd_local (L : limits) (out : vec) (inv : view) : M vec :=
  r <- cadd L out inv ;; match snd r with None => ret (fst r) | Some e => throw e end.

(** bn_division_impl.h:47-74; line 73 moves q into res *)
Fixpoint cdiv_outer (L : limits) (dbg : bool) (fi fuel : nat) (dividend : vec) (divisor : list Z) (r : vec) : M vec :=
  match fuel with
  | O => nofuel
  | S f =>
    c <- abs_val_is_ge (items dividend) divisor ;;
    if (c : bool) then
      bsrch0 <- ccopy divisor ;;
      bsrch1 <- ccopy divisor ;;
      q <- ccopy [wrap (ws L) 1] ;;
      bsrch1 <- cshift L bsrch1 ;;
      bq <- cdiv_inner L fi (items dividend) bsrch0 bsrch1 q ;;
      dividend <- csub L dbg dividend (other (items (fst bq))) ;;
      r <- (if (length (items (snd bq)) <=? length (items r))%nat
            then cadd_local L r (other (items (snd bq)))
            else cadd_local L (snd bq) (other (items r))) ;;
      cdiv_outer L dbg fi f dividend divisor r
    else ret r
  end.

(** bn_division_impl.h:8-78; line 76 moves res into the dividend *)
Definition cdiv (L : limits) (dbg : bool) (fuel : nat) (dividend : vec) (divisor : list Z) : M vec :=
  r <- ccopy [0] ;; cdiv_outer L dbg fuel fuel dividend divisor r.

(** bn_multiplication_impl.h:16-61 with all its requests (MulMemory.v); line 32 reserves as many digits as there are
    inverses, a power of two that is the size of the transform, and line 58 makes the vector smaller *)
Definition cmul (L : limits) (P : flops) (fuel : nat) (a b : list Z) : M vec :=
  w <- mul_detailed P L fuel a b ;; ret (mkVec w (Z.to_nat (fft_size (length a) (length b)))).

(** ** Objects *)

Inductive carg := COther (num : obj) | CSelf.
Definition bare_arg (y : carg) : arg := match y with COther x => Other (bare x) | CSelf => Self end.
Definition cdesc (this : obj) (y : carg) : bn_desc_t := match y with COther n => odesc n | CSelf => odesc this end.
Definition cdata (this : obj) (y : carg) : list Z := match y with COther n => items (ovec n) | CSelf => items (ovec this) end.
Definition cview (y : carg) : view := match y with COther n => other (items (ovec n)) | CSelf => same end.

Definition cassigned := (obj * option exn)%type.

(** bn_type_impl.h:58-94 *)
Definition cmake (L : limits) (d : bn_desc_t) (l : list Z) : M obj :=
  match l with
  | [] => ret (mkObj d nothing)
  | _ => let lz := leading_zeroes L l in
         v <- cresize nothing (length l - lz) 0 ;;
         w <- ctor_loop l lz (items v) (length (items v)) ;;
         ret (mkObj d (mkVec w (room v)))
  end.

(** bn_type_impl.h:100-103 *)
Definition ccopied (x : obj) : M obj := v <- ccopy (items (ovec x)) ;; ret (mkObj (odesc x) v).

(** bn_type_impl.h:385-389 *)
Definition ccopy_assign (this : obj) (y : carg) : M cassigned :=
  match y with
  | CSelf => ret (this, None)
  | COther num =>
      a <- attempt (cassign (ovec this) (items (ovec num))) ;;
      match a with
      | inl v => ret (mkObj (odesc num) v, None)
      | inr e => ret (mkObj (odesc num) (ovec this), Some e)
      end
  end.

(** the handlers: bn_type_impl.h:506-513, 575-582, 622-629, 692-699 clear the vector, which keeps its capacity *)
Definition cfailed (num_desc : bn_desc_t) (v : vec) : obj :=
  mkObj (if desc_eqb num_desc BN_POS then BN_POS_INF else BN_NEG_INF) (emptied v).

Definition cguarded (body : M obj) (on_fail : obj) : M cassigned :=
  a <- attempt body ;;
  match a with
  | inl x => ret (x, None)
  | inr ExBnError => throw ExBnError
  | inr _ => ret (on_fail, Some ExStd)
  end.

(** the sum of magnitudes as the body of the try block of += *)
Definition csummed (L : limits) (this : obj) (y : carg) : M cassigned :=
  r <- cadd L (ovec this) (cview y) ;;
  match snd r with
  | None => ret (mkObj (odesc this) (fst r), None)
  | Some ExBnError => throw ExBnError
  | Some _ => ret (cfailed (cdesc this y) (fst r), Some ExStd)
  end.

(** |*this| - |num| into *this if that is not negative, else a copy of num of which |*this| is subtracted, with descriptor [d] *)
Definition cdifference (L : limits) (dbg : bool) (this : obj) (y : carg) (d : bn_desc_t) : M cassigned :=
  cguarded
    (c <- abs_val_is_ge (items (ovec this)) (cdata this y) ;;
     if (c : bool) then v <- csub L dbg (ovec this) (cview y) ;; ret (mkObj (odesc this) v)
     else t <- ccopy (cdata this y) ;;
          v <- csub L dbg t (other (items (ovec this))) ;; ret (mkObj d v))
    (cfailed (cdesc this y) (ovec this)).

(** bn_type_impl.h:454-516 *)
Definition cadd_assign (L : limits) (dbg : bool) (this : obj) (y : carg) : M cassigned :=
  if negb (isComputable (odesc this)) then ret (mkObj (cdesc this y) (emptied (ovec this)), None)
  else if desc_eqb (odesc this) BN_POS && desc_eqb (cdesc this y) BN_POS then csummed L this y
  else if desc_eqb (odesc this) BN_POS && desc_eqb (cdesc this y) BN_NEG then cdifference L dbg this y BN_NEG
  else if desc_eqb (odesc this) BN_NEG && desc_eqb (cdesc this y) BN_POS then cdifference L dbg this y BN_POS
  else csummed L this y.

(** bn_type_impl.h:523-585 *)
Definition csub_assign (L : limits) (dbg : bool) (this : obj) (y : carg) : M cassigned :=
  if negb (isComputable (odesc this)) then ret (mkObj (cdesc this y) (emptied (ovec this)), None)
  else if desc_eqb (odesc this) BN_POS && desc_eqb (cdesc this y) BN_POS then cdifference L dbg this y BN_NEG
  else if (desc_eqb (odesc this) BN_POS && desc_eqb (cdesc this y) BN_NEG)
       || (desc_eqb (odesc this) BN_NEG && desc_eqb (cdesc this y) BN_POS) then
    cguarded
      (c <- abs_val_is_gt (items (ovec this)) (cdata this y) ;;
       t <- ccopy (if (c : bool) then items (ovec this) else cdata this y) ;;
       v <- csub L dbg t (other (cdata this y)) ;; ret (mkObj (odesc this) v))
      (cfailed (cdesc this y) (ovec this))
  else cdifference L dbg this y BN_POS.

(** bn_type_impl.h:592-632 *)
Definition cmul_assign (L : limits) (P : flops) (fuel : nat) (this : obj) (y : carg) : M cassigned :=
  if negb (isComputable (odesc this)) then ret (mkObj (cdesc this y) (emptied (ovec this)), None)
  else cguarded
    (v <- cmul L P fuel (items (ovec this)) (cdata this y) ;;
     ret (mkObj (product_desc (odesc this) (cdesc this y)) v))
    (cfailed (cdesc this y) (ovec this)).

(** bn_type_impl.h:639-702; line 687 assigns an initialiser list of one element *)
Definition cdiv_assign (L : limits) (dbg : bool) (fuel : nat) (this : obj) (y : carg) : M cassigned :=
  if negb (isComputable (odesc this)) then ret (mkObj (cdesc this y) (emptied (ovec this)), None)
  else
    let d := product_desc (odesc this) (cdesc this y) in
    let nd := match y with COther n => odesc n | CSelf => d end in
    let num := cdata this y in
    if match num with [x] => x =? wrap (wd L) (bmin L) | _ => false end then
      ret (mkObj (if desc_eqb d BN_NEG then BN_NEG_INF else BN_POS_INF) (emptied (ovec this)), None)
    else if match num with [x] => x =? wrap (ws L) 1 | _ => false end then
      ret (mkObj d (ovec this), None)
    else if match items (ovec this) with [] => true | [x] => x =? wrap (wd L) (bmin L) | _ => false end then
      ret (mkObj d (ovec this), None)
    else cguarded
      (c <- abs_val_is_gt (items (ovec this)) num ;;
       if (c : bool) then v <- cdiv L dbg fuel (ovec this) num ;; ret (mkObj d v)
       else v <- cassign (ovec this) [0] ;; ret (mkObj d v))
      (cfailed nd (ovec this)).

(** bn_type_impl.h:410-447 *)
Definition cbinary (f : obj -> carg -> M cassigned) (x y : obj) : M obj :=
  r <- ccopied x ;;
  s <- f r (COther y) ;;
  match snd s with None => ret (fst s) | Some e => throw e end.

(** ** Clients (Machine.v, While.v, Strict.v) *)

Definition cregs := nat -> obj.
Definition cupd (s : cregs) (r : nat) (x : obj) : cregs := fun i => if (i =? r)%nat then x else s i.

Definition ccompound (E : env) (op : arith_op) : obj -> carg -> M cassigned :=
  match op with
  | OAdd => cadd_assign (eL E) (eDbg E)
  | OSub => csub_assign (eL E) (eDbg E)
  | OMul => cmul_assign (eL E) (eP E) (eFuel E)
  | ODiv => cdiv_assign (eL E) (eDbg E) (eFuel E)
  end.

Definition coperand (s : cregs) (r i : nat) : carg := if (i =? r)%nat then CSelf else COther (s i).

(** a statement that computes an object into variable [r], and one that assigns to it, with ([true]) or without a handler *)
Definition cstore (handler : bool) (s : cregs) (r : nat) (m : M obj) : M cregs :=
  if handler then a <- attempt m ;; match a with inl x => ret (cupd s r x) | inr _ => ret s end
  else x <- m ;; ret (cupd s r x).
Definition cassigned_to (handler : bool) (s : cregs) (r : nat) (m : M cassigned) : M cregs :=
  a <- m ;;
  if handler then ret (cupd s r (fst a))
  else match snd a with None => ret (cupd s r (fst a)) | Some e => throw e end.

(** bn_type_impl.h:137-150 *)
Definition cset_desc (x : obj) (d : bn_desc_t) : obj :=
  match d with
  | BN_NAN | BN_POS_INF | BN_NEG_INF => mkObj d (emptied (ovec x))
  | _ => mkObj d (ovec x)
  end.

(** operations on the vector that ask for nothing: erase, pop_back, assignment to an element *)
Definition in_place (x : obj) (f : list Z -> M (list Z)) : M obj :=
  w <- f (items (ovec x)) ;; ret (mkObj (odesc x) (mkVec w (room (ovec x)))).
Definition growing (x : obj) (f : vec -> M vec) : M obj := v <- f (ovec x) ;; ret (mkObj (odesc x) v).

Definition cstep (handler : bool) (E : env) (i : instr) (s : cregs) : M cregs :=
  match i with
  | INew r d l => cstore handler s r (cmake (eL E) d l)
  | ICopy r t => cassigned_to handler s r (ccopy_assign (s r) (coperand s r t))
  | IMove r t =>
      if (t =? r)%nat
      then ret (cupd s r (mkObj BN_POS (if eKeep E then ovec (s r) else nothing)))
      else ret (cupd (cupd s t (mkObj BN_POS nothing)) r (s t))
  | IAssign op r t => cassigned_to handler s r (ccompound E op (s r) (coperand s r t))
  | IBinary op r t u => cstore handler s r (cbinary (ccompound E op) (s t) (s u))
  | ISetDesc r d => ret (cupd s r (cset_desc (s r) d))
  | IClear r => ret (cupd s r (mkObj BN_POS (emptied (ovec (s r)))))
  | IResize r n d => cstore handler s r (growing (s r) (fun v => cresize v n d))
  | IPushBack r d => cstore handler s r (growing (s r) (fun v => cpush v d))
  | IPushFront r d => cstore handler s r (growing (s r) (fun v => cinsert v 0 d))
  | IPush r d pos => cstore handler s r (growing (s r) (fun v => cinsert v pos d))
  | IPopBack r => cstore handler s r (in_place (s r) vpop)
  | IPopFront r => cstore handler s r (in_place (s r) (fun l => verase l 0))
  | IPop r pos => cstore handler s r (in_place (s r) (fun l => verase l pos))
  | ISetDigit r j d => cstore handler s r
      (in_place (s r) (fun l => (if (j <? length l)%nat then ret tt else throw ExBnError) ;;; vset l j d))
  end.

Fixpoint crun_caps (handler : bool) (E : env) (fuel : nat) (p : stmt) (s : cregs) : M cregs :=
  match fuel with
  | O => nofuel
  | S f =>
    match p with
    | Do i => cstep handler E i s
    | Seq a b => s1 <- crun_caps handler E f a s ;; crun_caps handler E f b s1
    | If c x y a b =>
        t <- compare c (bare (s x)) (bare (s y)) ;;
        if (t : bool) then crun_caps handler E f a s else crun_caps handler E f b s
    | While c x y a =>
        t <- compare c (bare (s x)) (bare (s y)) ;;
        if (t : bool) then s1 <- crun_caps handler E f a s ;; crun_caps handler E f (While c x y a) s1 else ret s
    end
  end.

End Capacity.
