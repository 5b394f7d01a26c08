(** * The whole program tests/compress_test.cpp

    Compress.v has the two computations; here are the files read, the text written and the exit status.  The file system is
    an argument: the bytes of each file that can be opened.  Wherever an exception can arise here, the text before it has just
    been flushed by std::endl, so what was written is seen even if the program is aborted.  Each std::string or std::vector made
    or grown is one request for memory (short strings need none: then the answer is yes).  The disabled branch of lines 234-248
    is left out. *)
From Coq Require Import String Ascii Decimal DecimalString.
From Verif Require Import Base Limits Spec Fourier Bignum Print Program Compress.
Local Open Scope string_scope.

Definition endl : string := String (ascii_of_nat 10) EmptyString.
Definition tab : string := String (ascii_of_nat 9) EmptyString.

(** a std::size_t or an uint16_t written by std::ostream with the default flags *)
Definition show (z : Z) : string := NilZero.string_of_uint (N.to_uint (Z.to_N z)).

(** bytes written as chars *)
Fixpoint bytes (l : list Z) : string :=
  match l with [] => EmptyString | c :: r => String (ascii_of_N (Z.to_N c)) (bytes r) end.

(** compress_test.cpp:58-79: the file's bytes, None for ERR_OPENING_FILE *)
Definition filesystem := string -> option (list Z).

Local Open Scope w_scope.

(** compress_test.cpp:58-79: the copy of the name, the stream's buffer, and the text.  An unreadable file leaves outData empty. *)
Definition read_file (files : filesystem) (filename : string) : W (option (list Z)) :=
  quiet alloc ;;;;
  quiet alloc ;;;;
  match files filename with
  | Some t => quiet alloc ;;;; quiet (ret (Some t))
  | None => quiet (ret None)
  end.

(** compress_test.cpp:84-133.  Its parameter named filename is the text. *)
Definition compress_file (dbg char_signed : bool) (fuel : nat) (text : list Z) : W (bignum * nat) :=
  write ("Compressing: " ++ bytes text ++ "." ++ endl) ;;;;
  write ("Original size: " ++ show (Z.of_nat (length text)) ++ endl) ;;;;
  c <-- quiet (compress dbg char_signed fuel text) ;;
  write ("Compressed size: " ++ show (Z.of_nat (bn_size (fst c))) ++ endl) ;;;;
  write ("Compressed Num: " ++ print base256 (fst c) ++ endl ++ endl) ;;;;
  quiet (ret c).

(** compress_test.cpp:138-174 *)
Definition decompress_file (dbg : bool) (P : flops) (fuel : nat) (filename : string) (inNum : bignum) (inSize : Z) (numLastBits : nat)
  : W unit :=
  write ("Decompressing: " ++ filename ++ "." ++ endl) ;;;;
  write ("Compressed Size: " ++ show (Z.of_nat (bn_size inNum)) ++ " " ++ show (Z.of_nat numLastBits) ++ endl) ;;;;
  write (print base256 inNum ++ endl ++ endl) ;;;;
  outNum <-- quiet (decompressed dbg P fuel inNum numLastBits) ;;
  write ("Decompressed Size: " ++ show (Z.of_nat (bn_size outNum)) ++ endl) ;;;;
  write ("Reference Size: " ++ show inSize ++ endl) ;;;;
  write (bytes (characters outNum) ++ endl) ;;;;
  write (print base256 outNum ++ endl).

(** compress_test.cpp:216-232, the body of the loop; it goes on after an unreadable file *)
Definition one_file (dbg char_signed : bool) (P : flops) (fuel : nat) (files : filesystem) (inFile : string) : W unit :=
  data <-- read_file files inFile ;;
  match data with
  | Some _ => quiet (ret tt)
  | None => write_err ("Unable to open the file " ++ inFile ++ " for reading." ++ endl)
  end ;;;;
  let fileData := match data with Some t => t | None => [] end in
  c <-- compress_file dbg char_signed fuel fileData ;;
  decompress_file dbg P fuel inFile (fst c) (Z.of_nat (length fileData)) (snd c).

(** compress_test.cpp:215-232 *)
Fixpoint each_file (dbg char_signed : bool) (P : flops) (fuel : nat) (files : filesystem) (argList : list string) : W unit :=
  match argList with
  | [] => quiet (ret tt)
  | f :: r => one_file dbg char_signed P fuel files f ;;;; each_file dbg char_signed P fuel files r
  end.

(** compress_test.cpp:179-189: inArg, the growing list and the copy of inArg in it *)
Fixpoint parseArgs (args : list string) : W unit :=
  match args with
  | [] => quiet (ret tt)
  | _ :: r => quiet alloc ;;;; quiet alloc ;;;; quiet alloc ;;;; parseArgs r
  end.

(** compress_test.cpp:209-213 *)
Fixpoint announce (argList : list string) : W unit :=
  match argList with
  | [] => write endl
  | arg :: r => write (endl ++ tab ++ arg) ;;;; announce r
  end.

(** compress_test.cpp:209-232 and 250 *)
Definition treat (dbg char_signed : bool) (P : flops) (fuel : nat) (files : filesystem) (argList : list string) : W Z :=
  write "Attempting to compress and decompress the following files:" ;;;;
  announce argList ;;;;
  each_file dbg char_signed P fuel files argList ;;;;
  quiet (ret 0%Z).

(** compress_test.cpp:196-250; the result is what main returns.  [args] are the arguments after the program's name; [test_file]
    is BN_TEST_FILE, None for nullptr (lines 17-19). *)
Definition compress_body (dbg char_signed : bool) (P : flops) (fuel : nat) (files : filesystem) (test_file : option string)
  (args : list string) : W Z :=
  parseArgs args ;;;;
  match args, test_file with
  | [], None => write_err ("No sample file provided to the compression test." ++ endl) ;;;; quiet (ret (-1)%Z)
  | [], Some f => quiet alloc ;;;; quiet alloc ;;;; treat dbg char_signed P fuel files [f]
  | _, _ => treat dbg char_signed P fuel files args
  end.

(** compress_test.cpp:194-251: there is no handler, so an exception ends the program by std::terminate *)
Definition compress_main (dbg char_signed : bool) (P : flops) (fuel : nat) (files : filesystem) (test_file : option string)
  (args : list string) : M ended :=
  fun al n =>
    let '(out, err, r) := compress_body dbg char_signed P fuel files test_file args al n in
    match r with
    | Ret s n' => Ret (mkEnded (Some s) out err) n'
    | Throw _ n' => Ret (mkEnded None out err) n'
    | Undef u => Undef u
    | NoFuel => NoFuel
    end.
