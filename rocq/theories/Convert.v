(** * A client: numbers to another base and back

    Nothing in the library converts between bases, so a client does it with the arithmetic operators.  These are the usual two
    loops; they are client code, not part of /repo, over the operators of bn_type_impl.h:286-447 (Bignum.v, Machine.v, While.v). *)
From Verif Require Import Base Spec Limits Bignum Machine While.

(** for (out.clear(); x CMP k;) { Bignum q = x / b; out.push_back(x - q * b); x = std::move(q); }
    The comparison CMP and the constant k are parameters.  [fuel] bounds the rounds. *)
Fixpoint to_digits (E : env) (c : comparison) (k b x : bignum) (out : list bignum) (fuel : nat) : M (list bignum) :=
  match fuel with
  | O => nofuel
  | S f =>
    t <- compare c x k ;;
    if (t : bool) then
      q <- binary (compound E ODiv) x b ;;
      p <- binary (compound E OMul) q b ;;
      r <- binary (compound E OSub) x p ;;
      out <- vpush out r ;;
      to_digits E c k b q out f
    else ret out
  end.

(** Horner's rule: Bignum acc; for (i = d.size(); i-- > 0;) acc = acc * b + d[i]; *)
Fixpoint from_digits (E : env) (b : bignum) (d : list bignum) : M bignum :=
  match d with
  | [] => ret bn_default
  | x :: r =>
    acc <- from_digits E b r ;;
    t <- binary (compound E OMul) acc b ;;
    binary (compound E OAdd) t x
  end.

(** for (i = 0; i < x.size(); ++i) d.push_back(T(BN_POS, {x[i]})); *)
Fixpoint lift_digits (L : limits) (x : list Z) : M (list bignum) :=
  match x with
  | [] => ret []
  | a :: r => y <- bn_make L BN_POS [a] ;; ys <- lift_digits L r ;; ret (y :: ys)
  end.

(** a number of another type: its digits, and Horner's rule with the other type's base [b] *)
Definition convert (E : env) (b x : bignum) : M bignum :=
  d <- lift_digits (eL E) (data x) ;; from_digits E b d.
