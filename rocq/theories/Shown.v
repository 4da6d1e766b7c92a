(** * How a report shows an argument of a given type

    Reports show arguments through Formatter<T>, T being the type of the parameter without
    reference and cv-qualifiers (Formatter.hpp:89-90, type_utils.hpp:24-27).  There are
    specialisations for bool, char, char const* and char* (Formatter.hpp:18-67), one for types
    that are not "ostreamable", which shows "?" (69-75), and one for those that are, which
    applies operator<< (77-85).  is_ostreamable (type_utils.hpp:47-65) is true for all
    arithmetic types and all pointers, and where the expression s << t is well-formed and of
    type std::ostream&.

    The model follows this choice and the overload resolution of s << t, whose rules and
    candidates are those of the C++ standard (in the trusted base).  Simplified: of the
    candidates that differ only in being templates, one is listed; manipulators (functions
    that operator<< calls, type_utils.hpp:67-84) are left out, so function pointers are those of
    other types; a class has at most one implicit conversion function, to a scalar type;
    an enumeration with a fixed underlying type prefers it (CWG 1601). *)
From Coq Require Import Bool Ascii String ZArith Lia List.
From Verif Require Import Base.
Import ListNotations.
Open Scope list_scope.
Open Scope nat_scope.

(** Versions of C++; the language, with whose types Formatter.hpp:89-90 is instantiated. *)
Inductive std := Cpp11 | Cpp14 | Cpp17 | Cpp20 | Cpp23.

(** The year of a version, without the century; the language, with whose types Formatter.hpp:89-90 is instantiated. *)
Definition year (v : std) : nat := match v with Cpp11 => 11 | Cpp14 => 14 | Cpp17 => 17 | Cpp20 => 20 | Cpp23 => 23 end.

(** Arithmetic types; the language, with whose types Formatter.hpp:89-90 is instantiated. *)
Inductive arith :=
| Bool | Char | SChar | UChar | WChar | Char8 | Char16 | Char32
| Short | UShort | Int | UInt | Long | ULong | LLong | ULLong | Float | Double | LDouble.

(** Equality of types; the language, with whose types Formatter.hpp:89-90 is instantiated. *)
Definition aeq (a b : arith) : bool :=
  match a, b with
  | Bool, Bool | Char, Char | SChar, SChar | UChar, UChar | WChar, WChar | Char8, Char8 | Char16, Char16 | Char32, Char32
  | Short, Short | UShort, UShort | Int, Int | UInt, UInt | Long, Long | ULong, ULong | LLong, LLong | ULLong, ULLong
  | Float, Float | Double, Double | LDouble, LDouble => true
  | _, _ => false
  end.

(** What a pointer points to; [OfBuffer] is std::streambuf or a class derived from it; the language, with whose types Formatter.hpp:89-90 is instantiated. *)
Inductive pointee := OfArith (a : arith) | OfVoid | OfFunction | OfBuffer (derived : bool) | OfOther.

(** Scalar types: [SEnum scoped fixed u], u being the fixed underlying type or that to which it promotes;
    [SPtr const volatile p]; pointers to members; the language, with whose types Formatter.hpp:89-90 is instantiated. *)
Inductive scalar :=
| SArith (a : arith)
| SNull
| SEnum (scoped fixed : bool) (u : arith)
| SPtr (c v : bool) (p : pointee)
| SMember.

(** Types of arguments without reference and qualifiers: scalars, enumerations for which there is an operator<< of the
    user, and classes; [own]: whether there is an operator<< of the user for constant objects, and if so whether it
    returns std::ostream&; the language, with whose types Formatter.hpp:89-90 is instantiated. *)
Inductive ty :=
| TScalar (s : scalar)
| TOwnEnum (own : bool)
| TClass (own : option bool) (conversion : option scalar).

(** The parameter of a candidate for s << t, the language: [PArith], [PText a] (a pointer to constant a, which is a
    character type), std::nullptr_t, const void*, const volatile void*, std::streambuf*, and the deleted ones. *)
Inductive cand := PArith (a : arith) | PText (a : arith) | PNull | PVoid | PVolatile | PBuffer | PNoChar (a : arith) | PNoText (a : arith).

(** The candidates of std::ostream in a version of C++: the standard, ostream.general, ostream.inserters.arithmetic,
    ostream.inserters.character.  Used in type_utils.hpp:55 and Formatter.hpp:82. *)
Definition candidates (v : std) : list cand :=
  map PArith [Bool; Short; UShort; Int; UInt; Long; ULong; LLong; ULLong; Float; Double; LDouble; Char; SChar; UChar]
  ++ map PText [Char; SChar; UChar] ++ [PVoid; PBuffer]
  ++ (if 17 <=? year v then [PNull] else [])
  ++ (if 20 <=? year v then map PNoChar [WChar; Char8; Char16; Char32] ++ map PNoText [WChar; Char8; Char16; Char32] else [])
  ++ (if 23 <=? year v then [PVolatile] else []).

(** Integral and floating point promotion: the standard, conv.prom, conv.fpprom; wchar_t and char16_t fit into int. *)
Definition promoted (a : arith) : option arith :=
  match a with
  | Bool | Char | SChar | UChar | Short | UShort | WChar | Char8 | Char16 => Some Int
  | Char32 => Some UInt
  | Float => Some Double
  | _ => None
  end.

(** How well a value of an arithmetic type goes into one of another: 0 exact, 1 promotion, 3 conversion; the
    standard, over.ics.scs, for type_utils.hpp:55. *)
Definition arith_rank (a b : arith) : nat :=
  if aeq a b then 0 else match promoted a with Some c => if aeq c b then 1 else 3 | None => 3 end.

(** How well a value of scalar type goes into the parameter of a candidate, smaller is better: the standard,
    over.best.ics, over.ics.rank.  Conversions of pointers are ordered: to a base class (3) before to const void* (4)
    before to const volatile void* (5), and to bool (6) is worst. *)
Definition rank (s : scalar) (c : cand) : option nat :=
  match s with
  | SArith a =>
      match c with
      | PArith b | PNoChar b => Some (arith_rank a b)
      | _ => None
      end
  | SNull => match c with PNull => Some 0 | PText _ | PVoid | PVolatile | PBuffer | PNoText _ => Some 3 | _ => None end
  | SEnum scoped fixed u =>
      if scoped then None
      else match c with
      | PArith b | PNoChar b =>
          if aeq u b then Some 1
          else match promoted u with Some d => if fixed && aeq d b then Some 2 else Some 3 | None => Some 3 end
      | _ => None
      end
  | SPtr _ vol p =>
      match c with
      | PArith Bool => Some 6
      | PVoid => match p with
          | OfFunction => None
          | OfVoid => if vol then None else Some 0
          | _ => if vol then None else Some 4 end
      | PVolatile => match p with OfFunction => None | OfVoid => Some 1 | _ => Some 5 end
      | PText b | PNoText b => match p with OfArith a => if aeq a b && negb vol then Some 0 else None | _ => None end
      | PBuffer => match p with
          | OfBuffer d => match s with SPtr false false _ => Some (if d then 3 else 0) | _ => None end
          | _ => None end
      | _ => None
      end
  | SMember => match c with PArith Bool => Some 6 | _ => None end
  end.

(** The best of the viable candidates, if there is one that is better than all others: the standard, over.match.best, for type_utils.hpp:55. *)
Fixpoint best (s : scalar) (l : list cand) : option (nat * list cand) :=
  match l with
  | [] => None
  | c :: r =>
      match rank s c, best s r with
      | None, b => b
      | Some n, None => Some (n, [c])
      | Some n, Some (k, cs) => if n <? k then Some (n, [c]) else if n =? k then Some (k, c :: cs) else Some (k, cs)
      end
  end.

(** s << t of a scalar: the function that is called, or none if there is none, it is ambiguous or deleted; type_utils.hpp:55, Formatter.hpp:82. *)
Definition resolve (v : std) (s : scalar) : option cand :=
  match best s (candidates v) with
  | Some (_, [PNoChar _]) | Some (_, [PNoText _]) => None
  | Some (_, [c]) => Some c
  | _ => None
  end.

(** The function that Formatter calls to show a value: one of the standard library, or one of the user; Formatter.hpp:82. *)
Inductive target := ByLibrary (c : cand) | ByUser.

(** s << t: the function, and whether the result is of type std::ostream&: type_utils.hpp:54-55, 63-64. *)
Definition insertion (v : std) (t : ty) : option (target * bool) :=
  let lib s := match resolve v s with Some c => Some (ByLibrary c, true) | None => None end in
  match t with
  | TScalar s => lib s
  | TOwnEnum r => Some (ByUser, r)
  | TClass (Some r) _ => Some (ByUser, r)
  | TClass None (Some s) => lib s
  | TClass None None => None
  end.

(** std::is_arithmetic, std::is_pointer: type_utils.hpp:61-62. *)
Definition always_ostreamable (t : ty) : bool :=
  match t with TScalar (SArith _) | TScalar (SPtr _ _ _) => true | _ => false end.

(** type_utils.hpp:47-65. *)
Definition is_ostreamable (v : std) (t : ty) : bool :=
  always_ostreamable t || match insertion v t with Some (_, r) => r | None => false end.

(** Which specialisation of Formatter, and what it does, Formatter.hpp:18-85; [NotCompiled]: s << t is an error there. *)
Inductive formatter := TrueFalse | QuotedChar | QuotedText | Question | Streamed (t : target) | NotCompiled.

(** Formatter.hpp:18-85. *)
Definition formatter_of (v : std) (t : ty) : formatter :=
  match t with
  | TScalar (SArith Bool) => TrueFalse
  | TScalar (SArith Char) => QuotedChar
  | TScalar (SPtr _ false (OfArith Char)) => QuotedText
  | _ =>
      if is_ostreamable v t then
        match insertion v t with Some (f, _) => Streamed f | None => NotCompiled end
      else Question
  end.

(** A parameter: by value, or by reference to a possibly volatile object.  (Qualifiers of parameters by value are not
    part of the type of a method.)  The language, with whose types Formatter.hpp:89-90 is instantiated. *)
Inductive passed := ByValue | ByReference (volatile : bool).

(** TuplePrinter.hpp:23, 30, Formatter.hpp:89-90: format takes its argument by reference to constant, to which a
    volatile object does not bind. *)
Definition format_of (v : std) (p : passed) (t : ty) : formatter :=
  match p with ByReference true => NotCompiled | _ => formatter_of v t end.

(** ** What is printed

    Values: of arithmetic types and enumerations a number (of floating point types its text), of pointers an address,
    of classes the text that the operator<< of the user prints, or the value that the conversion gives.
    What Formatter.hpp:18-85 is given. *)
Inductive value := VNumber (z : Z) | VFloat (text : string) | VPtr (p : option nat) | VText (s : string).

(** The memory that pointers lead to: characters up to the end of the object, or the content of a stream buffer, or
    nothing that may be read; models no lines of /repo. *)
Inductive cell := CChars (s : string) | CBuffer (s : string).
(** Models no lines of /repo. *)
Definition memory := nat -> option cell.

(** The characters before the first NUL; undefined if there is none.  Formatter.hpp:49, 82 read them. *)
Fixpoint before_nul (s : string) : outcome string :=
  match s with
  | EmptyString => UB
  | String c r => if Ascii.eqb c zero then Def EmptyString else let! t := before_nul r in Def (String c t)
  end.

(** A text that a pointer leads to; the null pointer is undefined for operator<<; the
    standard, for Formatter.hpp:49, 82. *)
Definition read_text (m : memory) (p : option nat) : outcome string :=
  match p with
  | None => UB
  | Some a => match m a with Some (CChars s) => before_nul s | _ => UB end
  end.

Section Print.
(** operator<< of integers and of addresses; nothing is assumed about them.  Formatter.hpp:82. *)
Variable show_number : Z -> string.
Variable show_address : option nat -> string.

(** operator<< of the standard library: the text, Formatter.hpp:82. *)
Definition streamed (m : memory) (c : cand) (x : value) : outcome string :=
  match c, x with
  | PArith (Char | SChar | UChar), VNumber z => Def (String (ascii_of_N (Z.to_N (z mod 256))) EmptyString)
  | PArith (Float | Double | LDouble), VFloat t => Def t
  | PArith Bool, VNumber z => Def (if Z.eqb z 0 then "0" else "1")%string
  | PArith Bool, VPtr p => Def (match p with None => "0" | Some _ => "1" end)%string
  | PArith _, VNumber z => Def (show_number z)
  | PText _, VPtr p => read_text m p
  | (PVoid | PVolatile), VPtr p => Def (show_address p)
  | PNull, _ => Def "nullptr"%string
  | PBuffer, VPtr (Some a) => match m a with Some (CBuffer s) => Def s | _ => UB end
  | PBuffer, VPtr None => Def EmptyString
  | _, _ => UB
  end.

(** Formatter<T>::format: Formatter.hpp:18-85. *)
Definition format (m : memory) (f : formatter) (x : value) : outcome string :=
  match f, x with
  | TrueFalse, VNumber z => Def (if Z.eqb z 0 then "false" else "true")%string
  | QuotedChar, VNumber z => Def (String "'" (String (ascii_of_N (Z.to_N (z mod 256))) "'"))
  | QuotedText, VPtr None => Def "[nullptr]"%string
  | QuotedText, VPtr p => let! t := read_text m p in Def (String """" (t ++ """"))%string
  | Question, _ => Def "?"%string
  | Streamed (ByLibrary c), _ => streamed m c x
  | Streamed ByUser, VText s => Def s
  | _, _ => UB
  end.

End Print.
