(** * The client tests/arithmetic_test.cpp

    For each of four number types the program prints a table of 24 results (lines 18-62), then a sequence of compound
    assignments on two long decimal numbers (lines 76-88). *)
From Coq Require Import String Ascii.
From Verif Require Import Base Spec Limits Fourier Multiplication Bignum Print Program.
Local Open Scope string_scope.
Local Open Scope w_scope.

Inductive symbol := Gt | Ge | Lt | Le | Plus | Minus | Times | Divide.

(** arithmetic_test.cpp:15-16, BN_STRINGIFY(cmp) *)
Definition symbol_text (o : symbol) : string :=
  match o with Gt => ">" | Ge => ">=" | Lt => "<" | Le => "<=" | Plus => "+" | Minus => "-" | Times => "*" | Divide => "/" end.

(** the value of (x cmp y): a bool or a number *)
Inductive outcome := Truth (b : bool) | Number (z : bignum).

(** one LOG_DEBUG_COMP: the operands as they are printed, the operator, the outcome *)
Record row := mkRow { left : bignum; op : symbol; right : bignum; result : outcome }.

Section Test.
Context (L : limits) (dbg : bool) (P : flops) (fuel : nat).

Definition truth (m : M bool) : M outcome := b <- m ;; ret (Truth b).
Definition number (m : M bignum) : M outcome := z <- m ;; ret (Number z).

(** (x cmp y) *)
Definition apply (x : bignum) (o : symbol) (y : bignum) : M outcome :=
  match o with
  | Gt => truth (op_gt x y)
  | Ge => truth (op_ge x y)
  | Lt => truth (op_lt x y)
  | Le => truth (op_le x y)
  | Plus => number (op_add L dbg x y)
  | Minus => number (op_sub L dbg x y)
  | Times => number (op_mul L P fuel x y)
  | Divide => number (op_div L dbg fuel x y)
  end.

(** arithmetic_test.cpp:15-16: LOG_DEBUG_COMP(x, cmp, y) *)
Definition log_debug_comp (x : bignum) (o : symbol) (y : bignum) : M row := r <- apply x o y ;; ret (mkRow x o y r).

Fixpoint each (l : list (bignum * symbol * bignum)) : M (list row) :=
  match l with
  | [] => ret []
  | (x, o, y) :: r => h <- log_debug_comp x o y ;; t <- each r ;; ret (h :: t)
  end.

(** arithmetic_test.cpp:28-41 and, after the descriptors were exchanged, 47-60 *)
Definition comparisons (x y : bignum) := [(x, Gt, y); (x, Ge, y); (x, Lt, y); (x, Le, y)].
Definition operations (x y : bignum) :=
  [(x, Plus, y); (x, Minus, y); (x, Times, y); (x, Divide, y); (y, Plus, x); (y, Minus, x); (y, Times, x); (y, Divide, x)].

(** arithmetic_test.cpp:25-60: the rows, in four groups, without their texts; [da], [db] are the digit lists of lines 25-26 *)
Definition test_rows (da db : list Z) : M (list (list row)) :=
  testNum1 <- bn_make L BN_NEG da ;;
  testNum2 <- bn_make L BN_POS db ;;
  r1 <- each (comparisons testNum1 testNum2) ;;
  r2 <- each (operations testNum1 testNum2) ;;
  let testNum1 := setDescriptor testNum1 BN_POS in
  let testNum2 := setDescriptor testNum2 BN_NEG in
  r3 <- each (comparisons testNum1 testNum2) ;;
  r4 <- each (operations testNum1 testNum2) ;;
  ret [r1; r2; r3; r4].

Definition newline : string := String (ascii_of_nat 10) EmptyString.
Definition tab : string := String (ascii_of_nat 9) EmptyString.

(** a bool without std::boolalpha is written 0 or 1 *)
Definition outcome_text (r : outcome) : string :=
  match r with Truth b => if b then "1" else "0" | Number z => print L z end.

(** arithmetic_test.cpp:15-16 with the std::endl of the lines using it: what stands before and after the value of
    (x cmp y) starts *)
Definition question_text (x : bignum) (o : symbol) (y : bignum) : string := print L x ++ symbol_text o ++ print L y ++ ":" ++ tab.
Definition answer_text (r : outcome) : string := outcome_text r ++ newline.

(** std::cout << LOG_DEBUG_COMP(x, cmp, y) << std::endl.  Before C++17 it is unspecified whether (x cmp y) is evaluated before
    or after the operands to its left are written: [first] tells for each row. *)
Definition write_row (first : bool) (x : bignum) (o : symbol) (y : bignum) : W unit :=
  if first then r <-- quiet (apply x o y) ;; write (question_text x o y ++ answer_text r)
  else write (question_text x o y) ;;;; r <-- quiet (apply x o y) ;; write (answer_text r).

(** the rows of a group, the first of which is number [i] of the table *)
Fixpoint write_rows (first : nat -> bool) (i : nat) (l : list (bignum * symbol * bignum)) : W unit :=
  match l with
  | [] => write ""
  | (x, o, y) :: r => write_row (first i) x o y ;;;; write_rows first (S i) r
  end.

(** arithmetic_test.cpp:20-24 *)
Definition rule : string := "------------------------------------------------------------------" ++ newline.
Definition header (name : string) : string := rule ++ tab ++ tab ++ tab ++ name ++ newline ++ rule ++ newline.

(** arithmetic_test.cpp:18-62: CREATE_BN_TEST(name) *)
Definition test_bn (first : nat -> bool) (name : string) : W unit :=
  write (header name) ;;;;
  testNum1 <-- quiet (bn_make L BN_NEG [1; bmax L; bmax L]) ;;
  testNum2 <-- quiet (bn_make L BN_POS [bmin L; 1; bmin L]) ;;
  write_rows first 0 (comparisons testNum1 testNum2) ;;;;
  write newline ;;;;
  write_rows first 4 (operations testNum1 testNum2) ;;;;
  write newline ;;;;
  let testNum1 := setDescriptor testNum1 BN_POS in
  let testNum2 := setDescriptor testNum2 BN_NEG in
  write_rows first 12 (comparisons testNum1 testNum2) ;;;;
  write newline ;;;;
  write_rows first 16 (operations testNum1 testNum2) ;;;;
  write (newline ++ newline ++ newline).

(** A compound assignment used as a statement. *)
Definition checked (m : M assigned) : M bignum := s <- m ;; match snd s with None => ret (fst s) | Some e => throw e end.

(** std::cout << x << std::endl *)
Definition write_line (x : bignum) : W unit := write (print L x ++ newline).

(** arithmetic_test.cpp:76-88 *)
Definition sequence_text (da db : list Z) : W unit :=
  a <-- quiet (bn_make L BN_POS da) ;;
  write_line a ;;;;
  b <-- quiet (bn_make L BN_POS db) ;;
  write_line b ;;;;
  a <-- quiet (checked (op_add_assign L dbg a (Other b))) ;;
  write_line a ;;;;
  a <-- quiet (checked (op_sub_assign L dbg a (Other b))) ;;
  write_line a ;;;;
  a <-- quiet (checked (op_mul_assign L P fuel a (Other b))) ;;
  write_line a ;;;;
  a <-- quiet (checked (op_div_assign L dbg fuel a (Other b))) ;;
  write_line a.
End Test.

(** arithmetic_test.cpp:76 and 78: the digits of a and b *)
Definition digits_a : list Z :=
  [1;9;8;1;0;9;8;3;0;9;8;5;1;0;9;2;8;5;0;1;9;2;8;5;1;0;2;9;5;8;1;0;2;9;5;8;1;2;0;9;5;8;1;0;9;2;5;8;1;2;0;9;5;8;1;2;0;9;5;8;1;0;2;9;5;8;1;2;0;
   9;5;8;1;2;0;9;8;5;6;1;2;0;8;5;6;1;2;0;9;5;8;1;2;0;9;5;8;1;2;0;9;5;8;1;2;0;9;5;8].
Definition digits_b : list Z :=
  [3;9;2;4;7;5;0;5;1;3;2;9;4;8;5;6;6;9;4;3;6;2;4;5;4;0;3;6;8;3;3;1;6;4;1;2;8;4;6;4;5;3;6;4;7;2;0;7;1;6;4;8;7;2;5;6;5;2;5;9;2;6;1;2;6;4;0;4;1;9;
   8;8;1;7;4;0].

(** arithmetic_test.cpp:71-88: the body of the try block; [first] for each table and row *)
Definition arithmetic_body (dbg : bool) (P : flops) (fuel : nat) (first : nat -> nat -> bool) : W unit :=
  test_bn base2 dbg P fuel (first 0%nat) "bignum_base2" ;;;;
  test_bn base8 dbg P fuel (first 1%nat) "bignum_base8" ;;;;
  test_bn base10 dbg P fuel (first 2%nat) "bignum_base10" ;;;;
  test_bn base16 dbg P fuel (first 3%nat) "bignum_base16" ;;;;
  sequence_text base10 dbg P fuel digits_a digits_b.

(** arithmetic_test.cpp:69-95.  [what e] is the text of the exception e, which for the exceptions that can occur here is
    the implementation's choice.  BN_ERROR is not a std::exception: nothing catches it. *)
Definition arithmetic_main (what : exn -> string) (dbg : bool) (P : flops) (fuel : nat) (first : nat -> nat -> bool) : M ended :=
  fun al n => let '(out, err, r) := arithmetic_body dbg P fuel first al n in
              match r with
              | Ret _ n' => Ret (mkEnded (Some 0%Z) out err) n'
              | Throw ExBnError n' => Ret (mkEnded None out err) n'
              | Throw e n' => Ret (mkEnded (Some 0%Z) out (err ++ "Exception caught: " ++ what e ++ newline)) n'
              | Undef u => Undef u
              | NoFuel => NoFuel
              end.
