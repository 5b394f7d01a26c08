(** * Digit types and their limits.

    Models include/bignum/bn_limits.h:138-196, include/bignum/impl/bn_limits_impl.h:9-82,
    include/bignum/bn_int_type.h:139-153 and include/bignum/bignum.h:32-44. *)
From Verif Require Import Base.

(** What the arithmetic depends on in a BNLimitsType<base_single_t, base_double_t>:
    - [ws], [wd]: widths in bits of the integer stored in base_single and base_double.  For BNIntType<T,id>
      this is the width of T (member [num], bn_int_type.h:26);
    - [bmin], [bmax]: bn_min_limit<base_single>(), bn_max_limit<base_single>().
    BNIntType operators compute [(numType)(num op other.num)] (bn_int_type_impl.h:126-135), i.e. they wrap at
    the width, exactly as an assignment of the promoted built-in expression to the built-in type does; that is
    why one record covers the built-in and the BNIntType instances. *)
Record limits := mkLimits { ws : Z; wd : Z; bmin : Z; bmax : Z }.

(** Conversion to an unsigned type of [w] bits. *)
Definition wrap (w z : Z) : Z := z mod 2 ^ w.

(** The base: bn_max_limit + 1, as a mathematical integer. *)
Definition base (L : limits) : Z := bmax L + 1.

(** bn_limits.h:189-191 with bn_limits_impl.h:9-23 (std::numeric_limits). *)
Definition lowp : limits := mkLimits 8 16 0 255.
Definition medp : limits := mkLimits 16 32 0 65535.
Definition highp : limits := mkLimits 32 64 0 4294967295.
(** bn_limits.h:193-196: base_single and base_double are the same type bn_baseN_single;
    bn_int_type.h:143-153 give the underlying integer types; bn_limits_impl.h:35-38, 48-51, 61-64, 74-77. *)
Definition base2 : limits := mkLimits 8 8 0 1.
Definition base8 : limits := mkLimits 16 16 0 7.
Definition base10 : limits := mkLimits 32 32 0 9.
Definition base16 : limits := mkLimits 32 32 0 15.
(** tests/compress_test.cpp:34-50 (an instance defined by a client of the library). *)
Definition base256 : limits := mkLimits 16 16 0 255.

Definition full_width_types : list limits := [lowp; medp; highp].
Definition base_n_types : list limits := [base2; base8; base10; base16; base256].
Definition shipped : list limits := full_width_types ++ base_n_types.

(** Side conditions used by the theorems, as decidable checks. *)
Definition limits_ok (L : limits) : bool :=
  (0 <? ws L) && (ws L <=? wd L) && (bmin L =? 0) && (1 <=? bmax L)
  && (base L <=? 2 ^ ws L) && (2 * base L <=? 2 ^ wd L).

(** The digit type has room to double a digit. *)
Definition can_double (L : limits) : bool := limits_ok L && (2 * base L <=? 2 ^ ws L).

(** The digit type holds the whole base range exactly (the built-in instances). *)
Definition full_width (L : limits) : bool := limits_ok L && (base L =? 2 ^ ws L).
