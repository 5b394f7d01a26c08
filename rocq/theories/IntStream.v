(** * Stream operators of BNIntType: include/bignum/impl/bn_int_type_impl.h:236-244

    Both forward to the built-in operators on the member [num], an unsigned number of [W] bits.  Those belong to the
    standard library; they are described here as the C++ standard does (sentry: [istream::sentry]; numbers:
    [facet.num.get.virtuals] with strtoull; characters: [istream.extractors]), for streams with the default flags
    (skipws, dec), the classic locale and no exceptions enabled.  A leading minus sign negates modulo 2^W, as libstdc++
    and libc++ do.  uint8_t is unsigned char, which streams treat as a character. *)
From Coq Require Import String Ascii Decimal DecimalString.
From Verif Require Import Base Limits.

Definition code (c : ascii) : Z := Z.of_N (N_of_ascii c).
Definition is_space (c : ascii) : bool := (code c =? 32) || ((9 <=? code c) && (code c <=? 13)).
Definition is_digit (c : ascii) : bool := (48 <=? code c) && (code c <=? 57).

(** what is left to read, and the flags: [fine] is the absence of failbit, [ended] is eofbit *)
Record istream := mkIn { text : string; fine : bool; ended : bool }.

Fixpoint skip_spaces (s : string) : string :=
  match s with String c r => if is_space c then skip_spaces r else s | EmptyString => s end.

(** the sentry: the stream afterwards, and whether there is something to read *)
Definition sentry (s : istream) : istream * bool :=
  if fine s && negb (ended s) then
    match skip_spaces (text s) with
    | EmptyString => (mkIn EmptyString false true, false)
    | t => (mkIn t true false, true)
    end
  else (mkIn (text s) false (ended s), false).

Fixpoint take_digits (s : string) (acc : Z) : Z * string :=
  match s with
  | String c r => if is_digit c then take_digits r (acc * 10 + (code c - 48)) else (acc, s)
  | EmptyString => (acc, s)
  end.

Definition at_end (s : string) : bool := match s with EmptyString => true | _ => false end.

(** stages 2 and 3 of reading an unsigned number: an optional sign, then digits *)
Definition get_unsigned (W : Z) (s : string) : istream * Z :=
  let (negative, t) := match s with
                       | String c r => if code c =? 45 then (true, r) else if code c =? 43 then (false, r) else (false, s)
                       | EmptyString => (false, s)
                       end in
  let starts := match t with String c _ => is_digit c | EmptyString => false end in
  let (v, rest) := take_digits t 0 in
  if negb starts then (mkIn rest false (at_end rest), 0)
  else if 2 ^ W <=? v then (mkIn rest false (at_end rest), 2 ^ W - 1)
  else (mkIn rest true (at_end rest), if negative then (- v) mod 2 ^ W else v).

(** bn_int_type_impl.h:241-244; [num] is the member before and, in the result, after *)
Definition bni_read (W : Z) (s : istream) (num : Z) : istream * Z :=
  let (s', something) := sentry s in
  if negb something then (s', num)
  else if W =? 8 then
    match text s' with
    | String c r => (mkIn r true false, code c)
    | EmptyString => (mkIn EmptyString false true, num)
    end
  else get_unsigned W (text s').

(** bn_int_type_impl.h:236-239 *)
Definition bni_write (W num : Z) : string :=
  if W =? 8 then String (ascii_of_N (Z.to_N num)) EmptyString else NilZero.string_of_uint (N.to_uint (Z.to_N num)).

(** a client: s >> x1 >> x2 >> ... into variables that hold 0 *)
Fixpoint read_all (W : Z) (n : nat) (s : istream) : istream * list Z :=
  match n with
  | O => (s, [])
  | S k => let (s1, v) := bni_read W s 0 in let (s2, l) := read_all W k s1 in (s2, v :: l)
  end.

(** a client: o << separator1 << x1 << separator2 << x2 ... *)
Fixpoint write_all (W : Z) (l : list (string * Z)) : string :=
  match l with [] => EmptyString | (p, v) :: r => (p ++ bni_write W v ++ write_all W r)%string end.

Definition opened (s : string) : istream := mkIn s true false.
