(** * How theorems speak about outcomes.

    Three ways of saying what a call does, for every behaviour of the memory allocator. *)
From Verif Require Import Base Spec Bignum.

(** Some allocation request numbered in [n, n') was refused. *)
Definition refused (al : nat -> bool) (n n' : nat) : Prop := exists k, (n <= k < n')%nat /\ al k = false.
(** All of them were granted. *)
Definition granted (al : nat -> bool) (n n' : nat) : Prop := forall k, (n <= k < n')%nat -> al k = true.
(** All but the last one were granted, the last one was refused. *)
Definition last_refused (al : nat -> bool) (n n' : nat) : Prop :=
  exists k, n' = S k /\ (n <= k)%nat /\ granted al n k /\ al k = false.

(** [m] is a call returning a value: unless an allocation is refused it returns normally a result satisfying
    [Q]; if one is refused it may instead throw std::bad_alloc or a std::exception.  It never reaches
    undefined behaviour, always ends, and never throws without a refused allocation. *)
Definition returns {A} (m : M A) (Q : A -> Prop) : Prop :=
  forall al n, match m al n with
               | Ret a n' => Q a /\ (n <= n')%nat
               | Throw e n' => (e = ExStd \/ e = ExBadAlloc) /\ refused al n n'
               | Undef _ | NoFuel => False
               end.

(** [m] is a compound assignment to *this: unless an allocation is refused it returns normally and *this
    satisfies [Q]; if one is refused it may instead throw a std::exception, leaving *this equal to [bad]. *)
Definition assigns (m : M assigned) (Q : bignum -> Prop) (bad : bignum) : Prop :=
  forall al n, match m al n with
               | Ret (z, None) n' => Q z /\ (n <= n')%nat
               | Ret (z, Some e) n' => e = ExStd /\ z = bad /\ refused al n n'
               | Throw _ _ | Undef _ | NoFuel => False
               end.

(** The infinity a failed operation leaves, given the descriptor of the right-hand operand. *)
Definition infinity_for (d : bn_desc_t) : bignum :=
  match d with BN_POS => mkBN BN_POS_INF [] | _ => mkBN BN_NEG_INF [] end.

(** [m] reaches undefined behaviour [u] under every allocation behaviour. *)
Definition is_undefined {A} (m : M A) (u : ub) : Prop := forall al n, m al n = Undef u.

(** [m fuel] never returns, whatever number of iterations is allowed: it is still running, or has thrown
    because an allocation was refused. *)
Definition never_returns {A} (m : nat -> M A) : Prop :=
  forall fuel al n, match m fuel al n with
                    | NoFuel => True
                    | Throw _ n' => refused al n n'
                    | Ret _ _ | Undef _ => False
                    end.

(** the same for a compound assignment *)
Definition never_completes (m : nat -> M assigned) (bad : bignum) : Prop :=
  forall fuel al n, match m fuel al n with
                    | NoFuel => True
                    | Ret (z, Some e) n' => e = ExStd /\ z = bad /\ refused al n n'
                    | Ret (_, None) _ | Throw _ _ | Undef _ => False
                    end.

(** [m] reaches undefined behaviour [u] unless an allocation is refused first (then *this ends as [bad]). *)
Definition undefined_assign (m : M assigned) (u : ub) (bad : bignum) : Prop :=
  forall al n, match m al n with
               | Undef u' => u' = u
               | Ret (z, Some e) n' => e = ExStd /\ z = bad /\ refused al n n'
               | Ret (_, None) _ | Throw _ _ | NoFuel => False
               end.
