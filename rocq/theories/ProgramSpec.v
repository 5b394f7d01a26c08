(** * How theorems speak about programs that write, for every behaviour of the memory allocator *)
From Coq Require Import String.
From Verif Require Import Base Outcome Program.
Local Open Scope string_scope.

(** [m] writes [out] and [err] and gives a result satisfying [Q]; if an allocation is refused it may instead throw, after
    having written a beginning of each. *)
Definition writes_both {A} (m : W A) (out err : string) (Q : A -> Prop) : Prop :=
  forall al n, let '(o, e, r) := m al n in
    match r with
    | Ret a n' => o = out /\ e = err /\ Q a /\ (n <= n')%nat
    | Throw x n' => (exists rest, out = o ++ rest) /\ (exists rest, err = e ++ rest) /\ (x = ExStd \/ x = ExBadAlloc) /\ refused al n n'
    | Undef _ | NoFuel => False
    end.

(** the same, with something left to write to std::cout whenever it throws *)
Definition writes_both_last {A} (m : W A) (out err : string) (Q : A -> Prop) : Prop :=
  forall al n, let '(o, e, r) := m al n in
    match r with
    | Ret a n' => o = out /\ e = err /\ Q a /\ (n <= n')%nat
    | Throw x n' => (exists rest, rest <> "" /\ out = o ++ rest) /\ (exists rest, err = e ++ rest) /\
        (x = ExStd \/ x = ExBadAlloc) /\ refused al n n'
    | Undef _ | NoFuel => False
    end.

(** nothing to std::cerr *)
Definition writes {A} (m : W A) (out : string) (Q : A -> Prop) : Prop := writes_both m out "" Q.
Definition writes_last {A} (m : W A) (out : string) (Q : A -> Prop) : Prop := writes_both_last m out "" Q.

(** [m] writes [out] and then throws a std::exception, or throws earlier because an allocation was refused; it writes nothing to
    std::cerr *)
Definition writes_then_throws {A} (m : W A) (out : string) : Prop :=
  forall al n, let '(o, e, r) := m al n in
    match r with
    | Throw x n' => e = "" /\ (o = out /\ x = ExStd \/
        (exists rest, rest <> "" /\ out = o ++ rest) /\ (x = ExStd \/ x = ExBadAlloc) /\ refused al n n')
    | Ret _ _ | Undef _ | NoFuel => False
    end.
