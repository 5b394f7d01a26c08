(** * operator << of Bignum on a stream that can fail

    Format.v has the text of a number for any formatting flags.  Here the stream's buffer has room for a bounded number of
    characters, as that of a full disk, a closed pipe or a fixed array.  How the standard's inserters behave then belongs to the
    standard library and is described as the C++ standard does ([ostream.formatted.reqmts], [facet.num.put.virtuals],
    [ostream::sentry]): characters are put one after the other until one is refused, which sets badbit; an insertion into a stream
    whose state is not good puts nothing and leaves the width; and where exceptions(badbit) is in force, either of these throws
    std::ios_base::failure.  A buffer may also throw instead of refusing the character.  The inserters catch whatever it throws and
    set badbit; where exceptions(badbit) is in force they throw it again. *)
From Coq Require Import String Ascii.
From Verif Require Import Base Spec Limits Format.
Local Open Scope string_scope.

Record sink := mkSink { written : string; room : nat; bad : bool }.

(** what leaves operator <<: std::ios_base::failure, or whatever the buffer threw *)
Inductive thrown := StreamFailure | BuffersOwn.
Inductive inserted := Inserted (f : format) (k : sink) | Failure (e : thrown) (k : sink).

Definition sink_of (o : inserted) : sink := match o with Inserted _ k => k | Failure _ k => k end.

Section OneStream.
(** does the buffer throw when there is no room, and has exceptions(badbit) been called *)
Variables throws mask : bool.

(** One insertion of what [put] makes of [prefix] and [body].  That of a number sets the width to 0 before it writes, in stage 3 of
    [facet.num.put.virtuals]; that of characters after it has written, [ostream.inserters.character], which is never reached if the
    buffer throws. *)
Definition sink_put (number : bool) (f : format) (prefix body : string) (k : sink) : inserted :=
  if bad k then if mask then Failure StreamFailure k else Inserted f k
  else
    let '(s, f') := put f prefix body in
    if Nat.leb (String.length s) (room k) then Inserted f' (mkSink (written k ++ s) (room k - String.length s) false)
    else let k' := mkSink (written k ++ String.substring 0 (room k) s) 0 true in
         if mask then Failure (if throws then BuffersOwn else StreamFailure) k'
         else Inserted (if throws && negb number then f else f') k'.

(** the next insertion, unless an exception is on its way *)
Definition and_then (o : inserted) (next : format -> sink -> inserted) : inserted :=
  match o with Inserted f k => next f k | Failure e k => Failure e k end.

(** ostr << n for an unsigned n, as Format.insert_unsigned *)
Definition sink_unsigned (f : format) (n : Z) (k : sink) : inserted :=
  let based := showbase f && negb (n =? 0)%Z in
  match basefield f with
  | Hex => sink_put true f (if based then if uppercase f then "0X" else "0x" else "") (unsigned_text f n) k
  | Oct => sink_put true f "" ((if based then "0" else "") ++ unsigned_text f n) k
  | Dec => sink_put true f "" (unsigned_text f n) k
  end.

(** ostr << d for a digit of W bits, as Format.insert_digit (bn_setup.h, bn_int_type_impl.h:236-239) *)
Definition sink_digit (W : Z) (f : format) (d : Z) (k : sink) : inserted :=
  if (W =? 8)%Z then sink_put false f "" (String (ascii_of_N (Z.to_N d)) "") k else sink_unsigned f d k.

(** bn_type_impl.h:39-42: from the last element down to the first.  The loop does not look at the state of the stream. *)
Fixpoint sink_digits (W : Z) (f : format) (v : list Z) (k : sink) : inserted :=
  match v with
  | [] => Inserted f k
  | d :: r => and_then (sink_digits W f r k) (fun f k => sink_digit W f d k)
  end.

(** bn_type_impl.h:33-44 *)
Definition sink_magnitude (L : limits) (f : format) (v : list Z) (k : sink) : inserted :=
  match v with [] => sink_put false f "" "0" k | _ => sink_digits (ws L) f v k end.

(** bn_type_impl.h:17-45 *)
Definition sink_insert (L : limits) (f : format) (x : bignum) (k : sink) : inserted :=
  match desc x with
  | BN_NEG => and_then (sink_put false f "" "-" k) (fun f k => sink_magnitude L f (data x) k)
  | BN_POS_INF => sink_put false f "" "+INF" k
  | BN_NEG_INF => sink_put false f "" "-INF" k
  | BN_NAN => sink_put false f "" "NaN" k
  | BN_POS => sink_magnitude L f (data x) k
  end.

(** ostr << x1 << x2 << ... with manipulators between: each number comes with what the manipulators before it do to the flags.
    Manipulators work on a stream in any state. *)
Fixpoint sink_all (L : limits) (f : format) (l : list ((format -> format) * bignum)) (k : sink) : inserted :=
  match l with
  | [] => Inserted f k
  | (m, x) :: r => and_then (sink_insert L (m f) x k) (fun f k => sink_all L f r k)
  end.

End OneStream.

(** the same on a stream that never fails *)
Fixpoint insert_all (L : limits) (f : format) (l : list ((format -> format) * bignum)) : string * format :=
  match l with
  | [] => ("", f)
  | (m, x) :: r => let '(s, f) := insert L (m f) x in
                   let '(t, f) := insert_all L f r in (s ++ t, f)
  end.
