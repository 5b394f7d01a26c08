(** * Vectors of numbers (model)

    std::vector<Bignum> as a client uses it.  The vector is libstdc++'s (bits/vector.tcc, bits/stl_vector.h), the operations on its
    elements are those of Bignum, with the capacities of their own vectors (Capacity.v).  The move constructor and the move assignment
    of Bignum (bn_type.h:135 and 385, bn_type_impl.h:109-114 and 396-403) are not declared noexcept.  So std::move_if_noexcept makes a
    reallocation copy the elements; everything else moves them. *)
From Verif Require Import Base Spec Limits Bignum Machine MulMemory Capacity.

Record seqn := mkSeq { elems : list obj; slots : nat }.

(** bn_type_impl.h:109-114: what is left of the source of a move construction keeps its descriptor *)
Definition moved_from (x : obj) : obj := mkObj (odesc x) nothing.
(** bn_type_impl.h:396-403: what is left of the source of a move assignment does not *)
Definition assigned_from : obj := mkObj BN_POS nothing.

Definition place (l : list obj) (i : nat) (x : obj) : list obj := firstn i l ++ x :: skipn (S i) l.
Definition at_index (l : list obj) (i : nat) : obj := nth i l assigned_from.

(** v[a] = std::move(v[b]), for different elements *)
Definition move_within (l : list obj) (a b : nat) : list obj := place (place l a (at_index l b)) b assigned_from.

(** std::uninitialized_copy *)
Fixpoint copies (l : list obj) : M (list obj) :=
  match l with
  | [] => ret []
  | x :: r => c <- ccopied x ;; cs <- copies r ;; ret (c :: cs)
  end.

Section Sequence.
Context (grow : nat -> nat -> nat).

(** the vector, and the exception if one leaves the function *)
Definition outcome := (seqn * option exn)%type.
Definition unless_thrown (v : seqn) (m : M seqn) : M outcome :=
  a <- attempt m ;; match a with inl w => ret (w, None) | inr e => ret (v, Some e) end.

(** _M_realloc_insert: new storage, the new element, the elements before and those behind it *)
Definition realloc_insert (v : seqn) (i : nat) (x : obj) : M seqn :=
  alloc ;;;
  c <- ccopied x ;;
  a <- copies (firstn i (elems v)) ;;
  b <- copies (skipn i (elems v)) ;;
  ret (mkSeq (a ++ c :: b) (grow (length (elems v)) 1)).

(** v.push_back(x); x may be an element of v, as it is copied first *)
Definition push_copy (v : seqn) (x : obj) : M outcome :=
  unless_thrown v
    (if (length (elems v) <? slots v)%nat then c <- ccopied x ;; ret (mkSeq (elems v ++ [c]) (slots v))
     else realloc_insert v (length (elems v)) x).

(** v.push_back(std::move(x)), with what is left of x *)
Definition push_move (v : seqn) (x : obj) : M (outcome * obj) :=
  if (length (elems v) <? slots v)%nat then ret ((mkSeq (elems v ++ [x]) (slots v), None), moved_from x)
  else
    a <- attempt alloc ;;
    match a with
    | inr e => ret ((v, Some e), x)
    | inl _ =>
      c <- attempt (copies (elems v)) ;;
      match c with
      | inr e => ret ((v, Some e), moved_from x)
      | inl l => ret ((mkSeq (l ++ [x]) (grow (length (elems v)) 1), None), moved_from x)
      end
    end.

(** std::move_backward: [n] elements, the first one into index [k] *)
Fixpoint shift_up (n k : nat) (l : list obj) : list obj :=
  match n with
  | O => l
  | S n' => shift_up n' (k - 1) (move_within l k (k - 1))
  end.

(** _M_insert_aux with a temporary copy: the last element is move-constructed behind itself, those from [i] on are moved up by move
    assignment, and the copy is moved into place *)
Definition insert_within (l : list obj) (i : nat) (c : obj) : list obj :=
  let last := (length l - 1)%nat in
  let l1 := place l last (moved_from (at_index l last)) ++ [at_index l last] in
  place (shift_up (last - i) last l1) i c.

(** v.insert(v.begin() + i, x) *)
Definition insert_copy (v : seqn) (i : nat) (x : obj) : M outcome :=
  if (i <=? length (elems v))%nat then
    unless_thrown v
      (if (length (elems v) <? slots v)%nat then
         c <- ccopied x ;;
         ret (mkSeq (if (i =? length (elems v))%nat then elems v ++ [c] else insert_within (elems v) i c) (slots v))
       else realloc_insert v i x)
  else undef UB_iterator.

(** std::move: [n] elements, the first one into index [k] *)
Fixpoint shift_down (n k : nat) (l : list obj) : list obj :=
  match n with
  | O => l
  | S n' => shift_down n' (S k) (move_within l k (S k))
  end.

(** v.erase(v.begin() + i): the elements behind it are moved down by move assignment, the last one is destroyed *)
Definition erase_at (v : seqn) (i : nat) : M outcome :=
  if (i <? length (elems v))%nat then
    ret (mkSeq (removelast (shift_down (length (elems v) - 1 - i) i (elems v))) (slots v), None)
  else undef UB_iterator.

(** v.pop_back() *)
Definition pop_last (v : seqn) : M outcome :=
  match elems v with [] => undef UB_iterator | _ => ret (mkSeq (removelast (elems v)) (slots v), None) end.

(** std::swap(v[i], v[j]):  T t(std::move(a)); a = std::move(b); b = std::move(t);
    if they are the same element, the middle statement moves an empty vector to itself *)
Definition swap_at (v : seqn) (i j : nat) : M outcome :=
  if (i <? length (elems v))%nat && (j <? length (elems v))%nat then
    let t := at_index (elems v) i in
    let l1 := place (elems v) i (moved_from t) in
    let l2 := if (i =? j)%nat then place l1 i assigned_from else move_within l1 i j in
    ret (mkSeq (place l2 j t) (slots v), None)
  else undef UB_index.

(** v.reserve(n) *)
Definition reserve_room (v : seqn) (n : nat) : M outcome :=
  if (n <=? slots v)%nat then ret (v, None)
  else unless_thrown v (alloc ;;; l <- copies (elems v) ;; ret (mkSeq l n)).

(** ** Programs *)
Inductive vop :=
| VPush (x : obj) | VGive (x : obj) | VInsert (i : nat) (x : obj) | VErase (i : nat) | VPop | VSwap (i j : nat) | VReserve (n : nat).

Definition vstep (o : vop) (v : seqn) : M outcome :=
  match o with
  | VPush x => push_copy v x
  | VGive x => r <- push_move v x ;; ret (fst r)
  | VInsert i x => insert_copy v i x
  | VErase i => erase_at v i
  | VPop => pop_last v
  | VSwap i j => swap_at v i j
  | VReserve n => reserve_room v n
  end.

(** operations until one throws; with the number of those that did not *)
Fixpoint vrun (ops : list vop) (v : seqn) (k : nat) : M (outcome * nat) :=
  match ops with
  | [] => ret ((v, None), k)
  | o :: rest =>
    r <- vstep o v ;;
    match snd r with
    | None => vrun rest (fst r) (S k)
    | Some e => ret (r, k)
    end
  end.

End Sequence.
