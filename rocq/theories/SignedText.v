(** * The number a text of signed chars stands for (specification) *)
From Verif Require Import Base.

(** a byte read as a signed char *)
Definition as_signed (c : Z) : Z := if c <? 128 then c else c - 256.

(** the first char is the least significant digit *)
Fixpoint signed_number (text : list Z) : Z :=
  match text with [] => 0 | c :: r => as_signed c + 256 * signed_number r end.
