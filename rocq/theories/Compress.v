(** * The client program of tests/compress_test.cpp

    [dbg] = BN_DEBUG is defined. *)
From Verif Require Import Base Limits Spec Fourier Bignum.

(** compress_test.cpp:94-95: [(uint16_t)c] for a char c given as the byte 0..255 it stores.  Whether char is
    signed depends on the platform. *)
Definition to_u16 (char_signed : bool) (c : Z) : Z :=
  wrap 16 (if char_signed && (128 <=? c) then c - 256 else c).

(** compress_test.cpp:92-96 *)
Fixpoint push_chars (char_signed : bool) (text : list Z) (x : bignum) : M bignum :=
  match text with
  | [] => ret x
  | c :: r => x <- push_back x (to_u16 char_signed c) ;; push_chars char_signed r x
  end.

(** a compound assignment used as a statement: an exception leaves the function *)
Definition statement (m : M assigned) : M bignum :=
  s <- m ;; match snd s with None => ret (fst s) | Some e => throw e end.

(** compress_test.cpp:103: [inNum.size() != 1 || inNum.numData[0] > 1] *)
Definition not_yet_small (x : bignum) : M bool :=
  if negb (bn_size x =? 1)%nat then ret true else d <- vget (data x) 0 ;; ret (1 <? d).

(** compress_test.cpp:105-106 and 120-121: the lowest bit of inNum, put into digit at numBitsUsed.  digit is a
    uint16_t; the shift is done on int. *)
Definition add_bit (x : bignum) (digit : Z) (nbits : nat) : M Z :=
  d <- vget (data x) 0 ;;
  let remainder := if d mod 2 =? 0 then 0 else 1 in
  ret (wrap 16 (Z.lor digit (Z.shiftl remainder (Z.of_nat nbits)))).

(** compress_test.cpp:103-116; returns (inNum, outNum, digit, numBitsUsed) *)
Fixpoint compress_loop (dbg : bool) (dfuel fuel : nat) (divisor x out : bignum) (digit : Z) (nbits : nat)
  : M (bignum * bignum * Z * nat) :=
  c <- not_yet_small x ;;
  if (c : bool) then
    match fuel with
    | O => nofuel
    | S f =>
      digit <- add_bit x digit nbits ;;
      s <- (if (S nbits =? 16)%nat then o <- push_back out digit ;; ret (o, 0, 0%nat)
            else ret (out, digit, S nbits)) ;;
      x <- statement (op_div_assign base256 dbg dfuel x (Other divisor)) ;;
      compress_loop dbg dfuel f divisor x (fst (fst s)) (snd (fst s)) (snd s)
    end
  else ret (x, out, digit, nbits).

(** compress_test.cpp:84-133, called with an outNum without digits (lines 224-225); returns (outNum, numLastBits).
    The text written to std::cout and inSize (only printed later) are left out. *)
Definition compress (dbg char_signed : bool) (fuel : nat) (text : list Z) : M (bignum * nat) :=
  x <- bn_make base256 BN_POS [] ;;
  x <- push_chars char_signed text x ;;
  x <- push_back x 0 ;;
  divisor <- bn_make base256 BN_POS [2] ;;
  s <- compress_loop dbg fuel fuel divisor x (mkBN BN_POS []) 0 0 ;;
  let '(x, out, digit, nbits) := s in
  digit <- add_bit x digit nbits ;;
  out <- push_back out digit ;;
  ret (out, S nbits).

(** compress_test.cpp:148-160; returns outNum.  [outNum = (...)] is a move assignment from a temporary. *)
Fixpoint decompress_loop (dbg : bool) (P : flops) (mfuel fuel : nat) (inNum divisor out : bignum) (iter nbits : nat) : M bignum :=
  if ((0 <? iter) && (0 <? nbits))%nat then
    match fuel with
    | O => nofuel
    | S f =>
      d <- vget (data inNum) (iter - 1) ;;
      digit <- bn_make base256 BN_POS [wrap 16 (Z.land (Z.shiftr d (Z.of_nat (nbits - 1))) 1)] ;;
      p <- op_mul base256 P mfuel out divisor ;;
      s <- op_add base256 dbg p digit ;;
      let out := fst (bn_move_assign s) in
      if (nbits - 1 =? 0)%nat then decompress_loop dbg P mfuel f inNum divisor out (iter - 1) 16
      else decompress_loop dbg P mfuel f inNum divisor out iter (nbits - 1)
    end
  else ret out.

(** compress_test.cpp:138-160, without the text written to std::cout: outNum after the loop *)
Definition decompressed (dbg : bool) (P : flops) (fuel : nat) (inNum : bignum) (numLastBits : nat) : M bignum :=
  out <- bn_make base256 BN_POS [0] ;;
  divisor <- bn_make base256 BN_POS [2] ;;
  decompress_loop dbg P fuel fuel inNum divisor out (bn_size inNum) numLastBits.

(** compress_test.cpp:165-168: the characters written, [(char)c] for each digit *)
Definition characters (x : bignum) : list Z := map (wrap 8) (data x).

(** compress_test.cpp:138-174; the characters written at lines 165-168 are the result *)
Definition decompress (dbg : bool) (P : flops) (fuel : nat) (inNum : bignum) (numLastBits : nat) : M (list Z) :=
  out <- decompressed dbg P fuel inNum numLastBits ;; ret (characters out).

(** compress_test.cpp:230-231 *)
Definition roundtrip (dbg char_signed : bool) (P : flops) (fuel : nat) (text : list Z) : M (list Z) :=
  c <- compress dbg char_signed fuel text ;;
  decompress dbg P fuel (fst c) (snd c).
