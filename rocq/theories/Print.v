(** * Output: operator << of Bignum (include/bignum/impl/bn_type_impl.h:17-45), and the runtime assertions of
    src/bn_except.cpp. *)
From Verif Require Import Base Spec Limits.
From Coq Require Import String Ascii Decimal DecimalString DecimalN.

(** What [ostr << d] writes for a digit with default formatting flags: BN_UINT8 is std::uint8_t, i.e.
    unsigned char (bn_setup.h), which an ostream writes as one raw character; wider unsigned types are written
    in decimal without leading zeros.  BNIntType forwards to its member (bn_int_type_impl.h:237-239). *)
Definition print_digit (L : limits) (d : Z) : string :=
  if ws L =? 8 then String (ascii_of_N (Z.to_N d)) EmptyString
  else NilZero.string_of_uint (N.to_uint (Z.to_N d)).

(** bn_type_impl.h:39-42: from the last element down to the first *)
Fixpoint print_digits (L : limits) (v : list Z) : string :=
  match v with
  | [] => EmptyString
  | d :: r => (print_digits L r ++ print_digit L d)%string
  end.

(** bn_type_impl.h:17-45 *)
Definition print (L : limits) (x : bignum) : string :=
  let body := match data x with [] => "0"%string | v => print_digits L v end in
  match desc x with
  | BN_NEG => ("-" ++ body)%string
  | BN_POS_INF => "+INF"%string
  | BN_NEG_INF => "-INF"%string
  | BN_NAN => "NaN"%string
  | BN_POS => body
  end.

(** ** bn_runtime_assert *)

(** include/bignum/bn_except.h:24-28 *)
Inductive bn_error_t := BN_ALERT | BN_WARNING | BN_ERROR.

Inductive stream := Cout | Cerr.

(** src/bn_except.cpp:15-29: what is written, and the enumerator thrown, if any.  std::endl is "\n". *)
Definition bn_runtime_assert (condition : bool) (type : bn_error_t) (msg : string)
  : list (stream * string) * option bn_error_t :=
  if condition then ([], None)
  else
    let errorString := match type with
                       | BN_ALERT => "ALERT: " | BN_WARNING => "WARNING: " | BN_ERROR => "ERROR: "
                       end%string in
    let s := match type with BN_ALERT => Cout | _ => Cerr end in
    ([(s, (errorString ++ msg ++ String (ascii_of_nat 10) EmptyString)%string)],
     match type with BN_ERROR => Some BN_ERROR | _ => None end).
