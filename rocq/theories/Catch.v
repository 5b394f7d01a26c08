(** * Clients with handlers for particular types of exceptions

    The programs of While.v with try blocks.  The exceptions are the objects of Base.v with their types (bn_except.h:23-27, 91-129);
    which handler takes an exception is [except.handle] of the C++ standard: the first one of its type or of a base class of it. *)
From Coq Require Import String.
From Verif Require Import Base Spec Limits Bignum Machine While.

(** catch (const BNUnderflow&), catch (const BNNaN&), catch (const std::bad_alloc&), catch (const std::exception&),
    catch (bn_error_t), catch (int), catch (...) *)
Inductive caught_type := TUnderflow | TNaN | TBadAlloc | TStd | TBnError | TInt | TAny.

(** bn_except.h:91 and 117: both classes derive from std::exception; bn_error_t (23-27) is an enumeration, which no other type takes *)
Definition takes (t : caught_type) (e : exn) : bool :=
  match t, e with
  | TAny, _ => true
  | TUnderflow, ExUnderflow => true
  | TBadAlloc, ExBadAlloc => true
  | TStd, (ExUnderflow | ExBadAlloc | ExStd) => true
  | TBnError, ExBnError => true
  | _, _ => false
  end.

(** what(): src/bn_except.cpp:35-46, and the texts of libstdc++ for its own classes; BN_ERROR has none *)
Definition what_text (e : exn) : option string :=
  match e with
  | ExUnderflow => Some "Attempted to subtract a larger bignum number from a smaller one."%string
  | ExBadAlloc => Some "std::bad_alloc"%string
  | ExStd => Some "std::exception"%string
  | ExBnError => None
  end.

Inductive guarded_stmt :=
| GDo (i : instr)
| GSeq (a b : guarded_stmt)
| GIf (c : comparison) (r s : nat) (a b : guarded_stmt)
| GWhile (c : comparison) (r s : nat) (a : guarded_stmt)
| GSkip
| GTry (a : guarded_stmt) (h : handlers)
| GRethrow                                              (* throw; *)
with handlers :=
| HNone
| HCatch (t : caught_type) (a : guarded_stmt) (h : handlers).

(** How a statement ends.  [Terminated]: std::terminate, by "throw;" outside of a handler. *)
Inductive ending := Normally | Raised (e : exn) | Terminated.

Definition raised (o : option exn) : ending := match o with None => Normally | Some e => Raised e end.

Definition stored (s : regs) (r : nat) (m : M bignum) : M (regs * ending) :=
  a <- attempt m ;; match a with inl x => ret (upd s r x, Normally) | inr e => ret (s, Raised e) end.

(** the statements of Machine.v, with the exception that leaves them *)
Definition raising_step (E : env) (i : instr) (s : regs) : M (regs * ending) :=
  match i with
  | INew r d l => stored s r (bn_make (eL E) d l)
  | ICopy r t => a <- bn_copy_assign (s r) (operand s r t) ;; ret (upd s r (fst a), raised (snd a))
  | IMove r t =>
      if (t =? r)%nat
      then ret (upd s r (bn_self_move_assign (if eKeep E then data (s r) else []) (s r)), Normally)
      else let (new, old) := bn_move_assign (s t) in ret (upd (upd s t old) r new, Normally)
  | IAssign op r t => a <- compound E op (s r) (operand s r t) ;; ret (upd s r (fst a), raised (snd a))
  | IBinary op r t u => stored s r (binary (compound E op) (s t) (s u))
  | ISetDesc r d => ret (upd s r (setDescriptor (s r) d), Normally)
  | IClear r => ret (upd s r (clear (s r)), Normally)
  | IResize r n d => stored s r (bn_resize (s r) n d)
  | IPushBack r d => stored s r (push_back (s r) d)
  | IPushFront r d => stored s r (push_front (s r) d)
  | IPush r d pos => stored s r (push (s r) d pos)
  | IPopBack r => stored s r (pop_back (s r))
  | IPopFront r => stored s r (pop_front (s r))
  | IPop r pos => stored s r (pop (s r) pos)
  | ISetDigit r j d => stored s r (subscript_set (s r) j d)
  end.

Fixpoint handler_for (h : handlers) (e : exn) : option guarded_stmt :=
  match h with
  | HNone => None
  | HCatch t a r => if takes t e then Some a else handler_for r e
  end.

(** [now] is the exception being handled.  An exception out of a handler leaves the whole try block. *)
Fixpoint guarded_run (E : env) (fuel : nat) (now : option exn) (p : guarded_stmt) (s : regs) : M (regs * ending) :=
  match fuel with
  | O => nofuel
  | S f =>
    match p with
    | GDo i => raising_step E i s
    | GSkip => ret (s, Normally)
    | GSeq a b =>
        r <- guarded_run E f now a s ;;
        match snd r with Normally => guarded_run E f now b (fst r) | _ => ret r end
    | GIf c x y a b => t <- compare c (s x) (s y) ;; if (t : bool) then guarded_run E f now a s else guarded_run E f now b s
    | GWhile c x y a =>
        t <- compare c (s x) (s y) ;;
        if (t : bool) then
          r <- guarded_run E f now a s ;;
          match snd r with Normally => guarded_run E f now (GWhile c x y a) (fst r) | _ => ret r end
        else ret (s, Normally)
    | GTry a h =>
        r <- guarded_run E f now a s ;;
        match snd r with
        | Raised e => match handler_for h e with Some b => guarded_run E f (Some e) b (fst r) | None => ret r end
        | _ => ret r
        end
    | GRethrow => ret (s, match now with Some e => Raised e | None => Terminated end)
    end
  end.
