(** * operator << of Bignum in a locale that groups digits (model)

    Format.v has the classic locale.  Here std::numpunct<char> of the stream's locale is an argument: its thousands_sep()
    and its grouping() as [facet.numpunct.virtuals] describes it.  The digits of an integer are grouped before the prefix of
    std::showbase and the padding are put to them, as libstdc++'s num_put::_M_insert_int does. *)
From Coq Require Import String Ascii.
From Verif Require Import Base Spec Limits Format.
Local Open Scope string_scope.

(** [sizes] are the sizes of the groups from the right, the last of which repeats; 0 stands for the values of grouping()
    that leave the rest in one group (not positive, or CHAR_MAX) *)
Record punct := mkPunct { separator : ascii; sizes : list nat }.

Definition classic : punct := mkPunct "," [].

(** [cs] from the right; [left] characters still go to the present group, of size [g] *)
Fixpoint group_from (sep : ascii) (g left : nat) (rest : list nat) (cs : list ascii) : list ascii :=
  match cs with
  | [] => []
  | c :: t =>
    if (g =? 0)%nat then c :: t
    else match left with
         | S l => c :: group_from sep g l rest t
         | O => let '(g', rest') := match rest with [] => (g, []) | h :: r => (h, r) end in
                sep :: c :: group_from sep g' (g' - 1) rest' t
         end
  end.

Definition grouped (p : punct) (s : string) : string :=
  match sizes p with
  | [] => s
  | g :: r => string_of_list_ascii (rev (group_from (separator p) g g r (rev (list_ascii_of_string s))))
  end.

(** ostr << n for an unsigned n *)
Definition insert_unsigned_in (p : punct) (f : format) (n : Z) : string * format :=
  let based := showbase f && negb (n =? 0)%Z in
  let body := grouped p (unsigned_text f n) in
  match basefield f with
  | Hex => put f (if based then if uppercase f then "0X" else "0x" else "") body
  | Oct => put f "" ((if based then "0" else "") ++ body)
  | Dec => put f "" body
  end.

(** ostr << d for a digit of W bits (bn_int_type_impl.h:236-239); a character is not grouped *)
Definition insert_digit_in (p : punct) (W : Z) (f : format) (d : Z) : string * format :=
  if (W =? 8)%Z then put f "" (String (ascii_of_N (Z.to_N d)) "") else insert_unsigned_in p f d.

(** bn_type_impl.h:39-42 *)
Fixpoint insert_digits_in (p : punct) (W : Z) (f : format) (v : list Z) : string * format :=
  match v with
  | [] => ("", f)
  | d :: r => let '(s, f) := insert_digits_in p W f r in
              let '(t, f) := insert_digit_in p W f d in (s ++ t, f)
  end.

(** bn_type_impl.h:33-44 *)
Definition insert_magnitude_in (p : punct) (L : limits) (f : format) (v : list Z) : string * format :=
  match v with [] => put f "" "0" | _ => insert_digits_in p (ws L) f v end.

(** bn_type_impl.h:17-45 *)
Definition insert_in (p : punct) (L : limits) (f : format) (x : bignum) : string * format :=
  match desc x with
  | BN_NEG => let '(s, f) := put f "" "-" in
              let '(t, f) := insert_magnitude_in p L f (data x) in (s ++ t, f)
  | BN_POS_INF => put f "" "+INF"
  | BN_NEG_INF => put f "" "-INF"
  | BN_NAN => put f "" "NaN"
  | BN_POS => insert_magnitude_in p L f (data x)
  end.
