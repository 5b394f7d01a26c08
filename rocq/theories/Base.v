(** * Outcomes of the modelled C++ code.

    Every abnormal outcome of the code is a distinct constructor, so that a theorem saying "returns r"
    also says "no exception, no undefined behaviour, no non-termination".

    Nothing here models a particular line of /repo; it is the execution model that the model files
    (Limits.v, Compare.v, AddSub.v, Division.v, Fourier.v, Multiplication.v, Bignum.v, ...) use. *)
From Coq Require Export ZArith List Bool Arith Lia.
Export ListNotations.
Open Scope Z_scope.

(** Exceptions.  [ExBadAlloc] std::bad_alloc from an allocator; [ExUnderflow] BNUnderflow
    (include/bignum/bn_except.h:117-128); [ExStd] a std::exception object, which is what "throw e;" in the
    catch blocks of bn_type_impl.h (512, 581, 628, 698) throws, because e is a [const std::exception&] and is
    copied (sliced); [ExBnError] the enumerator BN_ERROR thrown by bn_runtime_assert (src/bn_except.cpp:27). *)
Inductive exn := ExBadAlloc | ExUnderflow | ExStd | ExBnError.

(** Kinds of undefined behaviour that the modelled code can reach. *)
Inductive ub :=
| UB_index            (* vector element access at an index >= size() *)
| UB_div_zero         (* integer / or % by zero *)
| UB_signed_overflow  (* overflow of an int produced by integral promotion *)
| UB_float_to_int     (* floating value out of the range of the target integer type *)
| UB_shift            (* shift count negative or >= width of the promoted operand, or lost bits *)
| UB_iterator.        (* insert/erase/pop_back with an invalid position *)

Inductive res (A : Type) : Type :=
| Ret (a : A) (n : nat)        (* completed; n allocations requested so far *)
| Throw (e : exn) (n : nat)    (* an exception left the computation *)
| Undef (u : ub)               (* undefined behaviour was reached *)
| NoFuel.                      (* a loop or recursion did not end within the fuel *)
Arguments Ret {A} a n.  Arguments Throw {A} e n.  Arguments Undef {A} u.  Arguments NoFuel {A}.

(** A computation gets an allocation oracle [al] (the k-th allocation request succeeds iff [al k = true]) and
    the number of requests made so far. *)
Definition M (A : Type) : Type := (nat -> bool) -> nat -> res A.

Definition ret {A} (a : A) : M A := fun _ n => Ret a n.
Definition bind {A B} (m : M A) (k : A -> M B) : M B :=
  fun al n => match m al n with
              | Ret a n' => k a al n'
              | Throw e n' => Throw e n'
              | Undef u => Undef u
              | NoFuel => NoFuel
              end.
Definition throw {A} (e : exn) : M A := fun _ n => Throw e n.
Definition undef {A} (u : ub) : M A := fun _ _ => Undef u.
Definition nofuel {A} : M A := fun _ _ => NoFuel.

Declare Scope m_scope.
Delimit Scope m_scope with m.
Open Scope m_scope.
Notation "x <- m ;; k" := (bind m (fun x => k))
  (at level 61, m at next level, right associativity) : m_scope.
Notation "m ;;; k" := (bind m (fun _ => k)) (at level 61, right associativity) : m_scope.

(** A point at which the C++ code may ask the allocator for memory.  std::vector only allocates when the
    capacity is exhausted; treating every growth, copy or construction of a vector as a possible failure
    point over-approximates the real failure points. *)
Definition alloc : M unit := fun al n => if al n then Ret tt (S n) else Throw ExBadAlloc (S n).

(** The oracle of a machine that never runs out of memory, and an execution on it. *)
Definition never_fails : nat -> bool := fun _ => true.
Definition run {A} (m : M A) : res A := m never_fails 0%nat.

(** ** std::vector operations used by the code (bignum.h:24-25: the container is std::vector). *)

(** [v[i]] (unchecked operator[] of std::vector). *)
Definition vget {A} (v : list A) (i : nat) : M A :=
  match nth_error v i with Some d => ret d | None => undef UB_index end.

(** [v[i] = d]. *)
Definition vset {A} (v : list A) (i : nat) (d : A) : M (list A) :=
  if (i <? length v)%nat then ret (firstn i v ++ d :: skipn (S i) v) else undef UB_index.

(** [v.push_back(d)]. *)
Definition vpush {A} (v : list A) (d : A) : M (list A) := alloc ;;; ret (v ++ [d]).

(** Copy construction or copy assignment of a vector. *)
Definition vcopy {A} (v : list A) : M (list A) := alloc ;;; ret v.

(** [v.insert(v.begin()+i, d)]: the iterator must be in [begin, end]. *)
Definition vinsert {A} (v : list A) (i : nat) (d : A) : M (list A) :=
  if (i <=? length v)%nat then alloc ;;; ret (firstn i v ++ d :: skipn i v) else undef UB_iterator.

(** [v.erase(v.begin()+i)]: the iterator must be dereferenceable. *)
Definition verase {A} (v : list A) (i : nat) : M (list A) :=
  if (i <? length v)%nat then ret (firstn i v ++ skipn (S i) v) else undef UB_iterator.

(** [v.pop_back()]: undefined on an empty vector. *)
Definition vpop {A} (v : list A) : M (list A) :=
  match v with [] => undef UB_iterator | _ => ret (removelast v) end.

(** [v.resize(n, d)]. *)
Definition vresize {A} (v : list A) (n : nat) (d : A) : M (list A) :=
  alloc ;;; ret (firstn n v ++ repeat d (n - length v)).
