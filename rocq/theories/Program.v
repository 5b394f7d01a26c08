(** * Programs that write to std::cout and std::cerr

    Nothing here models a particular line of /repo: like Base.v it is the execution model of the test programs.  A writing
    computation gives the texts it has written to either stream, however it ends; an exception does not undo what was written
    before it. *)
From Coq Require Import String.
From Verif Require Import Base.
Local Open Scope string_scope.

Definition W (A : Type) : Type := (nat -> bool) -> nat -> (string * string) * res A.

(** a computation that writes nothing *)
Definition quiet {A} (m : M A) : W A := fun al n => ("", "", m al n).

(** std::cout << s *)
Definition write (s : string) : W unit := fun _ n => (s, "", Ret tt n).

(** std::cerr << s *)
Definition write_err (s : string) : W unit := fun _ n => ("", s, Ret tt n).

Definition wbind {A B} (m : W A) (k : A -> W B) : W B :=
  fun al n => let '(o, e, r) := m al n in
              match r with
              | Ret a n' => let '(o', e', r') := k a al n' in (o ++ o', e ++ e', r')
              | Throw x n' => (o, e, Throw x n')
              | Undef u => (o, e, Undef u)
              | NoFuel => (o, e, NoFuel)
              end.

Declare Scope w_scope.
Delimit Scope w_scope with w.
Notation "x <-- m ;; k" := (wbind m (fun x => k))
  (at level 61, m at next level, right associativity) : w_scope.
Notation "m ;;;; k" := (wbind m (fun _ => k)) (at level 61, right associativity) : w_scope.

(** What a program leaves behind when it ends: its exit status, None if it was ended by std::terminate, and the texts. *)
Record ended := mkEnded { status : option Z; std_out : string; std_err : string }.
