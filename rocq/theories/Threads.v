(** * Clients with several threads

    The programs of Strict.v, one per thread, over shared variables.  The library has no object of its own that changes: its only
    static objects are constexpr (bn_type_impl.h:648, bn_division_impl.h:16-18, bn_addition_impl.h:19, bn_multiplication_impl.h:21
    and 72, fourier_impl.h:42), so the variables of the client and the allocator are all that the threads share.  A schedule says
    which thread takes the next step; a step is one statement or one comparison.  (Where no thread writes a variable that another
    one uses there is no data race, and then the C++ memory model allows the executions of such schedules only.) *)
From Verif Require Import Base Spec Limits Bignum Machine While Strict.

(** what a thread has left to do *)
Definition thread := list stmt.

(** one step of a thread *)
Definition advance (E : env) (t : thread) (s : regs) : M (thread * regs) :=
  match t with
  | [] => ret ([], s)
  | Do i :: r => s' <- strict_step E i s ;; ret (r, s')
  | Seq a b :: r => ret (a :: b :: r, s)
  | If c x y a b :: r => v <- compare c (s x) (s y) ;; ret ((if (v : bool) then a else b) :: r, s)
  | While c x y a :: r => v <- compare c (s x) (s y) ;; ret (if (v : bool) then a :: While c x y a :: r else r, s)
  end.

Definition replaced {A} (l : list A) (i : nat) (a : A) : list A := firstn i l ++ a :: skipn (S i) l.

(** An exception that leaves a thread ends the program (std::terminate). *)
Fixpoint interleaved (E : env) (schedule : list nat) (ts : list thread) (s : regs) : M (list thread * regs) :=
  match schedule with
  | [] => ret (ts, s)
  | i :: q =>
    match nth_error ts i with
    | None => interleaved E q ts s
    | Some t => r <- advance E t s ;; interleaved E q (replaced ts i (fst r)) (snd r)
    end
  end.
