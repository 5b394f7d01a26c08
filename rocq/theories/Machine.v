(** * Clients: programs over the public interface of Bignum.

    A client owns variables (registers); an instruction is one statement of client code, each wrapped in a
    try/catch that swallows the exception.  Using one register for both operands of an instruction is using
    the same object.  The instructions cover every mutating member of bn_type.h:102-458 except assignment to
    the public data members. *)
From Verif Require Import Base Spec Limits Fourier Multiplication Bignum.

Definition regs := nat -> bignum.
Definition upd (s : regs) (r : nat) (x : bignum) : regs := fun i => if (i =? r)%nat then x else s i.

Inductive arith_op := OAdd | OSub | OMul | ODiv.

Inductive instr :=
| INew (r : nat) (d : bn_desc_t) (l : list Z)     (* r = Bignum(d, {l...})  *)
| ICopy (r s : nat)                               (* r = s *)
| IMove (r s : nat)                               (* r = std::move(s) *)
| IAssign (op : arith_op) (r s : nat)             (* r op= s *)
| IBinary (op : arith_op) (r s t : nat)           (* r = s op t *)
| ISetDesc (r : nat) (d : bn_desc_t)
| IClear (r : nat)
| IResize (r : nat) (n : nat) (d : Z)
| IPushBack (r : nat) (d : Z)
| IPushFront (r : nat) (d : Z)
| IPush (r : nat) (d : Z) (pos : nat)
| IPopBack (r : nat)
| IPopFront (r : nat)
| IPop (r : nat) (pos : nat)
| ISetDigit (r : nat) (i : nat) (d : Z).          (* r[i] = d *)

(** The environment of an execution: number type, BN_DEBUG, floating-point arithmetic, fuel, and whether a
    vector that is move-assigned to itself keeps its elements (unspecified by the standard: it is valid, and
    the implementations in use either empty it or leave it alone). *)
Record env := mkEnv { eL : limits; eDbg : bool; eP : flops; eFuel : nat; eKeep : bool }.

Definition compound (E : env) (op : arith_op) : bignum -> arg -> M assigned :=
  match op with
  | OAdd => op_add_assign (eL E) (eDbg E)
  | OSub => op_sub_assign (eL E) (eDbg E)
  | OMul => op_mul_assign (eL E) (eP E) (eFuel E)
  | ODiv => op_div_assign (eL E) (eDbg E) (eFuel E)
  end.

(** try { m } catch (...) { } with the exception recorded *)
Definition attempt {A} (m : M A) : M (A + exn) :=
  fun al n => match m al n with
              | Ret a n' => Ret (inl a) n'
              | Throw e n' => Ret (inr e) n'
              | Undef u => Undef u
              | NoFuel => NoFuel
              end.

Definition operand (s : regs) (r i : nat) : arg := if (i =? r)%nat then Self else Other (s i).

(** [m] computes the new contents of register [r]; on an exception the register is unchanged (single-element
    insertion at either end, resize and construction into a temporary have no effect if they throw). *)
Definition store (s : regs) (r : nat) (m : M bignum) : M regs :=
  a <- attempt m ;; match a with inl x => ret (upd s r x) | inr _ => ret s end.

Definition step (E : env) (i : instr) (s : regs) : M regs :=
  match i with
  | INew r d l => store s r (bn_make (eL E) d l)
  | ICopy r t => a <- bn_copy_assign (s r) (operand s r t) ;; ret (upd s r (fst a))
  | IMove r t =>
      if (t =? r)%nat
      then ret (upd s r (bn_self_move_assign (if eKeep E then data (s r) else []) (s r)))
      else let (new, old) := bn_move_assign (s t) in ret (upd (upd s t old) r new)
  | IAssign op r t => a <- compound E op (s r) (operand s r t) ;; ret (upd s r (fst a))
  | IBinary op r t u => store s r (binary (compound E op) (s t) (s u))
  | ISetDesc r d => ret (upd s r (setDescriptor (s r) d))
  | IClear r => ret (upd s r (clear (s r)))
  | IResize r n d => store s r (bn_resize (s r) n d)
  | IPushBack r d => store s r (push_back (s r) d)
  | IPushFront r d => store s r (push_front (s r) d)
  | IPush r d pos => store s r (push (s r) d pos)
  | IPopBack r => store s r (pop_back (s r))
  | IPopFront r => store s r (pop_front (s r))
  | IPop r pos => store s r (pop (s r) pos)
  | ISetDigit r j d => store s r (subscript_set (s r) j d)
  end.

Fixpoint exec (E : env) (p : list instr) (s : regs) : M regs :=
  match p with
  | [] => ret s
  | i :: q => s' <- step E i s ;; exec E q s'
  end.

(** All variables default-constructed. *)
Definition fresh : regs := fun _ => bn_default.
