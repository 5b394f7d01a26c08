(** * Programs over BNIntType (model)

    Variables are of type BNIntType<numType> (wrapped) or numType (plain).  Every operator of bn_int_type_impl.h with at least one
    wrapped operand can be used; the statements say which lines run.  Operands of other types are left out: with an operand that has
    to be converted to numType first the call is ambiguous (the member operators compete with the built-in ones through the
    conversion at line 67), so such a program does not compile. *)
From Coq Require Import Arith.
From Verif Require Import Base Limits BNInt.

Inductive loc := Wrapped (r : nat) | Plain (r : nat).
Definition istate := loc -> Z.

Definition same_loc (a b : loc) : bool :=
  match a, b with Wrapped i, Wrapped j => (i =? j)%nat | Plain i, Plain j => (i =? j)%nat | _, _ => false end.
Definition put_at {A} (s : loc -> A) (d : loc) (v : A) : loc -> A := fun l => if same_loc l d then v else s l.

Inductive binop := BAdd | BSub | BMul | BDiv | BRem | BAnd | BOr | BXor | BShr | BShl.
Inductive unop := UNot | UPlus | UNeg | UCompl.
Inductive relop := REq | RNe | RGt | RGe | RLt | RLe.

(** bn_int_type_impl.h:126-160 *)
Definition apply_bin (W : Z) (o : binop) (x y : Z) : M Z :=
  match o with
  | BAdd => bni_add W x y | BSub => bni_sub W x y | BMul => bni_mul W x y | BDiv => bni_div W x y | BRem => bni_mod W x y
  | BAnd => bni_and W x y | BOr => bni_or W x y | BXor => bni_xor W x y | BShr => bni_shr W x y | BShl => bni_shl W x y
  end.
(** bn_int_type_impl.h:103-121 *)
Definition apply_un (W : Z) (u : unop) (x : Z) : M Z :=
  match u with UNot => bni_not W x | UPlus => bni_plus W x | UNeg => bni_neg W x | UCompl => bni_compl W x end.
(** bn_int_type_impl.h:167-183 and, with a numType on the left, 218-230 *)
Definition apply_rel (c : relop) (x y : Z) : bool :=
  match c with REq => bni_eq x y | RNe => bni_ne x y | RGt => bni_gt x y | RGe => bni_ge x y | RLt => bni_lt x y | RLe => bni_le x y end.

Inductive istmt :=
| NSkip
| NSet (d : loc) (z : Z)              (* d = (numType)z: lines 27-33, 57-60 *)
| NCopy (d a : loc)                   (* d = a: lines 17-33, 39-60, and the conversion at 67 *)
| NBin (o : binop) (d a b : loc)      (* d = a op b: lines 128, 133, and 192 with a plain left operand *)
| NAssign (o : binop) (d a : loc)     (* d op= a: lines 138, 144, and 197 with a plain left operand *)
| NUn (u : unop) (d a : loc)          (* d = op a *)
| NIncr (d : loc) | NDecr (d : loc)   (* ++d, --d: lines 89-98 *)
| NPostIncr (d a : loc) | NPostDecr (d a : loc)   (* d = a++, d = a--: lines 74-86; a is changed before d is assigned *)
| NSeq (p q : istmt)
| NIf (c : relop) (a b : loc) (p q : istmt)
| NLoop (c : relop) (a b : loc) (p : istmt).

Fixpoint nrun (W : Z) (fuel : nat) (p : istmt) (s : istate) : M istate :=
  match fuel with
  | O => nofuel
  | S f =>
    match p with
    | NSkip => ret s
    | NSet d z => ret (put_at s d (wrap W z))
    | NCopy d a => ret (put_at s d (s a))
    | NBin o d a b => v <- apply_bin W o (s a) (s b) ;; ret (put_at s d v)
    | NAssign o d a => v <- apply_bin W o (s d) (s a) ;; ret (put_at s d v)
    | NUn u d a => v <- apply_un W u (s a) ;; ret (put_at s d v)
    | NIncr d => v <- bni_inc W (s d) ;; ret (put_at s d v)
    | NDecr d => v <- bni_dec W (s d) ;; ret (put_at s d v)
    | NPostIncr d a => v <- bni_post_inc W (s a) ;; ret (put_at (put_at s a (snd v)) d (fst v))
    | NPostDecr d a => v <- bni_post_dec W (s a) ;; ret (put_at (put_at s a (snd v)) d (fst v))
    | NSeq p q => s <- nrun W f p s ;; nrun W f q s
    | NIf c a b p q => if apply_rel c (s a) (s b) then nrun W f p s else nrun W f q s
    | NLoop c a b p => if apply_rel c (s a) (s b) then (s <- nrun W f p s ;; nrun W f (NLoop c a b p) s) else ret s
    end
  end.

(** Two clients.  while (b != 0) { t = a % b; a = b; b = t; } *)
Definition int_gcd : istmt :=
  NLoop RNe (Wrapped 1) (Plain 0)
    (NSeq (NBin BRem (Wrapped 2) (Wrapped 0) (Wrapped 1)) (NSeq (NCopy (Wrapped 0) (Wrapped 1)) (NCopy (Wrapped 1) (Wrapped 2)))).

(** r = 1; while (e != 0) { t = e & 1; if (t != 0) r *= x; x *= x; e >>= 1; } *)
Definition int_power_loop : istmt :=
  NLoop RNe (Wrapped 2) (Plain 0)
    (NSeq (NBin BAnd (Wrapped 3) (Wrapped 2) (Plain 1))
    (NSeq (NIf RNe (Wrapped 3) (Plain 0) (NAssign BMul (Wrapped 0) (Wrapped 1)) NSkip)
    (NSeq (NAssign BMul (Wrapped 1) (Wrapped 1)) (NAssign BShr (Wrapped 2) (Plain 1))))).
Definition int_power : istmt :=
  NSeq (NSet (Plain 0) 0) (NSeq (NSet (Plain 1) 1) (NSeq (NSet (Wrapped 0) 1) int_power_loop)).
