(** * operator << of Bignum on streams with any formatting flags

    Print.v has the text for the default flags.  Here the stream's flags, width and fill character are an argument.  What the
    standard's inserters do with them belongs to the standard library and is described as the C++ standard does
    ([facet.num.put.virtuals] for integers, [ostream.inserters.character] for characters and texts), in the classic locale. *)
From Coq Require Import String Ascii.
From Verif Require Import Base Spec Limits.
Local Open Scope string_scope.

(** std::oct, std::dec, std::hex *)
Inductive radix := Oct | Dec | Hex.
Definition radix_value (r : radix) : Z := match r with Oct => 8 | Dec => 10 | Hex => 16 end.

(** std::left, std::right (also when neither is set), std::internal *)
Inductive adjustment := ToLeft | ToRight | Internal.

(** std::showpos has no effect on unsigned numbers *)
Record format := mkFormat { basefield : radix; showbase : bool; uppercase : bool;
                            adjust : adjustment; fill : ascii; width : nat }.

(** width(0), which every inserter below ends with *)
Definition no_width (f : format) : format := mkFormat (basefield f) (showbase f) (uppercase f) (adjust f) (fill f) 0.

Fixpoint filled (c : ascii) (n : nat) : string := match n with O => "" | S k => String c (filled c k) end.

(** Padding.  [prefix] is what internal padding comes after. *)
Definition put (f : format) (prefix body : string) : string * format :=
  let pad := filled (fill f) (width f - (String.length prefix + String.length body)) in
  (match adjust f with
   | ToLeft => prefix ++ body ++ pad
   | ToRight => pad ++ prefix ++ body
   | Internal => prefix ++ pad ++ body
   end, no_width f).

Definition digit_char (up : bool) (d : Z) : ascii :=
  ascii_of_N (Z.to_N (if d <? 10 then 48 + d else if up then 55 + d else 87 + d)%Z).

(** the digits of n in base b, before those already there *)
Fixpoint unsigned_digits (up : bool) (fuel : nat) (b n : Z) (acc : string) : string :=
  match fuel with
  | O => acc
  | S k => let s := String (digit_char up (n mod b)%Z) acc in
           if (n / b =? 0)%Z then s else unsigned_digits up k b (n / b)%Z s
  end.

Definition unsigned_text (f : format) (n : Z) : string :=
  unsigned_digits (uppercase f) (S (Z.to_nat (Z.log2 n))) (radix_value (basefield f)) n "".

(** ostr << n for an unsigned n: printf's %o, %u or %x, with # for showbase *)
Definition insert_unsigned (f : format) (n : Z) : string * format :=
  let based := showbase f && negb (n =? 0)%Z in
  match basefield f with
  | Hex => put f (if based then if uppercase f then "0X" else "0x" else "") (unsigned_text f n)
  | Oct => put f "" ((if based then "0" else "") ++ unsigned_text f n)
  | Dec => put f "" (unsigned_text f n)
  end.

(** ostr << d for a digit of W bits: BN_UINT8 is unsigned char (bn_setup.h), which is written as a character; BNIntType
    forwards to its member (bn_int_type_impl.h:236-239) *)
Definition insert_digit (W : Z) (f : format) (d : Z) : string * format :=
  if (W =? 8)%Z then put f "" (String (ascii_of_N (Z.to_N d)) "") else insert_unsigned f d.

(** bn_type_impl.h:39-42: from the last element down to the first *)
Fixpoint insert_digits (W : Z) (f : format) (v : list Z) : string * format :=
  match v with
  | [] => ("", f)
  | d :: r => let '(s, f) := insert_digits W f r in
              let '(t, f) := insert_digit W f d in (s ++ t, f)
  end.

(** bn_type_impl.h:33-44 *)
Definition insert_magnitude (L : limits) (f : format) (v : list Z) : string * format :=
  match v with [] => put f "" "0" | _ => insert_digits (ws L) f v end.

(** bn_type_impl.h:17-45 *)
Definition insert (L : limits) (f : format) (x : bignum) : string * format :=
  match desc x with
  | BN_NEG => let '(s, f) := put f "" "-" in
              let '(t, f) := insert_magnitude L f (data x) in (s ++ t, f)
  | BN_POS_INF => put f "" "+INF"
  | BN_NEG_INF => put f "" "-INF"
  | BN_NAN => put f "" "NaN"
  | BN_POS => insert_magnitude L f (data x)
  end.

(** a stream as it is at the start *)
Definition default_format : format := mkFormat Dec false false ToRight " " 0.
