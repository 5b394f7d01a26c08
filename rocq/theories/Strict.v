(** * Clients without exception handlers

    The programs of Machine.v and While.v with every statement as it is, not wrapped in a try block: the first exception that
    leaves a statement leaves the program.  (Machine.v's [step] swallows it.) *)
From Verif Require Import Base Spec Limits Bignum Machine While.

(** a compound or copy assignment as a statement *)
Definition assigned_to (s : regs) (r : nat) (m : M assigned) : M regs :=
  a <- m ;; match snd a with None => ret (upd s r (fst a)) | Some e => throw e end.

Definition put_in (s : regs) (r : nat) (m : M bignum) : M regs := x <- m ;; ret (upd s r x).

(** the statements of Machine.v *)
Definition strict_step (E : env) (i : instr) (s : regs) : M regs :=
  match i with
  | INew r d l => put_in s r (bn_make (eL E) d l)
  | ICopy r t => assigned_to s r (bn_copy_assign (s r) (operand s r t))
  | IMove r t =>
      if (t =? r)%nat
      then ret (upd s r (bn_self_move_assign (if eKeep E then data (s r) else []) (s r)))
      else let (new, old) := bn_move_assign (s t) in ret (upd (upd s t old) r new)
  | IAssign op r t => assigned_to s r (compound E op (s r) (operand s r t))
  | IBinary op r t u => put_in s r (binary (compound E op) (s t) (s u))
  | ISetDesc r d => ret (upd s r (setDescriptor (s r) d))
  | IClear r => ret (upd s r (clear (s r)))
  | IResize r n d => put_in s r (bn_resize (s r) n d)
  | IPushBack r d => put_in s r (push_back (s r) d)
  | IPushFront r d => put_in s r (push_front (s r) d)
  | IPush r d pos => put_in s r (push (s r) d pos)
  | IPopBack r => put_in s r (pop_back (s r))
  | IPopFront r => put_in s r (pop_front (s r))
  | IPop r pos => put_in s r (pop (s r) pos)
  | ISetDigit r j d => put_in s r (subscript_set (s r) j d)
  end.

(** the programs of While.v *)
Fixpoint strict_run (E : env) (fuel : nat) (p : stmt) (s : regs) : M regs :=
  match fuel with
  | O => nofuel
  | S f =>
    match p with
    | Do i => strict_step E i s
    | Seq a b => s1 <- strict_run E f a s ;; strict_run E f b s1
    | If c x y a b => t <- compare c (s x) (s y) ;; if (t : bool) then strict_run E f a s else strict_run E f b s
    | While c x y a =>
        t <- compare c (s x) (s y) ;;
        if (t : bool) then s1 <- strict_run E f a s ;; strict_run E f (While c x y a) s1 else ret s
    end
  end.

(** statements one after the other *)
Fixpoint strict_exec (E : env) (p : list instr) (s : regs) : M regs :=
  match p with
  | [] => ret s
  | i :: q => s' <- strict_step E i s ;; strict_exec E q s'
  end.
