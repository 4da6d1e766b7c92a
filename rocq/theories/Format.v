(** Model of include/mockutils/Formatter.hpp, TuplePrinter.hpp,
    include/fakeit/DefaultEventFormatter.hpp and of the format() functions of
    invocations, matchers and mocking contexts. *)
From Coq Require Import Ascii String DecimalString NArith ZArith Lia List.
From Coq Require Import Floats.SpecFloat.
From Verif Require Import Base CInt Values ArgMatchers InvMatchers Sequences Expectation.
Import ListNotations.
Open Scope string_scope.

(** std::endl on a stream: DefaultEventFormatter.hpp:21, 39, 43. *)
Definition newline : string := String (ascii_of_nat 10) EmptyString.
(** Formatter.hpp:48, 50. *)
Definition quote : string := String (ascii_of_nat 34) EmptyString.

(** operator<< of an integer: decimal, minus sign for negative numbers.  Formatter.hpp:82,
    DefaultEventFormatter.hpp:49, 52, 108, 144. *)
Definition show_Z (z : Z) : string := NilZero.string_of_int (Z.to_int z).

Section Fmt.
(** operator<< of doubles and of object addresses (implementation specific);
    nothing is assumed about them. *)
Variable show_dbl : spec_float -> string.
Variable show_ptr : option addr -> string.

(** Formatter<T>::format: Formatter.hpp:19-90 (bool 19-26, char 28-39,
    const char pointer 41-60, non-streamable "?" 70-76, streamable 78-86).
    A reference is looked through; a char pointer is read up to its NUL. *)
Definition fmt_viewed (m : mem) (v : val) : outcome string :=
  match v with
  | VVoid => UB
  | VInt z => Def (show_Z z)
  | VDbl x => Def (show_dbl x)
  | VBool b => Def (if b then "true" else "false")
  | VChar c => Def ("'" ++ String c "'")
  | VStr s => Def s
  | VCStr None => Def "[nullptr]"
  | VCStr (Some p) =>
      let! c := load m p in
      match c with
      | VStr buf => Def (quote ++ cut_nul buf ++ quote)
      | _ => UB
      end
  | VPtr p => Def (show_ptr p)
  | VRef _ => UB
  | VOpaque _ => Def "?"
  end.

(** TypeFormatter<T>::format: Formatter.hpp:18-85. *)
Definition fmt_val (m : mem) (v : val) : outcome string :=
  let! w := view m v in fmt_viewed m w.

(** Strings separated by [sep]: the effect of the loops in TuplePrinter.hpp:22-42
    and invocation_matchers.hpp:46-50. *)
Fixpoint join (sep : string) (l : list string) : string :=
  match l with
  | [] => ""
  | [x] => x
  | x :: l' => x ++ sep ++ join sep l'
  end.

(** TuplePrinter.hpp:19-45, one after the other. *)
Fixpoint fmt_all (m : mem) (l : list val) : outcome (list string) :=
  match l with
  | [] => Def []
  | v :: l' =>
      let! s := fmt_val m v in
      let! ss := fmt_all m l' in
      Def (s :: ss)
  end.

(** print(ostream, tuple): TuplePrinter.hpp:44-49. *)
Definition print_tuple (m : mem) (args : list val) : outcome string :=
  let! ss := fmt_all m args in Def ("(" ++ join ", " ss ++ ")").

(** ActualInvocation::format: ActualInvocation.hpp:57-62. *)
Definition fmt_invocation (m : mem) (name : string) (args : list val) : outcome string :=
  let! s := print_tuple m args in Def (name ++ s).

(** TypeFormatter<ExpectedT>::format of a stored operand: a char array is
    streamed as the characters before its NUL, without quotes.  argument_matchers.hpp:97, Formatter.hpp:77-85. *)
Definition fmt_expected (m : mem) (e : expected) : outcome string :=
  match e with
  | XVal v => fmt_val m v
  | XArr s => Def (cut_nul s)
  end.

(** argument_matchers.hpp:97, 127, 157, 187, 217, 247, 277, 307, 337, 367, 397, 427. *)
Definition rel_prefix (r : rel) : string :=
  match r with
  | REq => "" | RGt => ">" | RGe => ">=" | RLt => "<" | RLe => "<=" | RNe => "!="
  end.

(** format() of the argument matchers: argument_matchers.hpp:70-72, 96-98,
    126-128, 156-158, 186-188, 216-218, 246-248, 276-278, 306-308, 336-338,
    366-368, 396-398, 426-428, 470-472.  The operand of a string matcher is a
    std::string (StrEq(std::string&&), StrEq(const std::string&) and so on, 535-593), which is printed whole and without
    quotes, past an embedded NUL. *)
Definition fmt_amatcher (m : mem) (am : amatcher) : outcome string :=
  match am with
  | AAny => Def "Any"
  | ACmp r e => let! s := fmt_expected m e in Def (rel_prefix r ++ s)
  | AStr r s => Def (rel_prefix r ++ s)
  | AApprox e k =>
      let! a := fmt_val m e in
      let! b := fmt_val m k in
      Def (a ++ "+/-" ++ b)
  end.

(** invocation_matchers.hpp:43-53, one after the other. *)
Fixpoint fmt_amatchers (m : mem) (l : list amatcher) : outcome (list string) :=
  match l with
  | [] => Def []
  | am :: l' =>
      let! s := fmt_amatcher m am in
      let! ss := fmt_amatchers m l' in
      Def (s :: ss)
  end.

(** format() of the invocation matchers: invocation_matchers.hpp:43-53, 133-135,
    157-159. *)
Definition fmt_imatcher (m : mem) (im : imatcher) : outcome string :=
  match im with
  | IMArgs ms => let! ss := fmt_amatchers m ms in Def ("(" ++ join ", " ss ++ ")")
  | IMUser _ => Def "( user defined matcher )"
  | IMDefault => Def "( Any arguments )"
  end.

(** format() of a mocking context: MethodMockingContext.hpp:107-111; the name is
    mock name, dot, method name: RecordedMethodBody.hpp:166-169. *)
Definition fmt_context (m : mem) (mock meth : string) (im : imatcher) : outcome string :=
  let! s := fmt_imatcher m im in Def (mock ++ "." ++ meth ++ s).

End Fmt.

(** ** DefaultEventFormatter.hpp *)

Section Event.
(** A leaf of a pattern prints as its (only) matcher: 84-98.  [leaf] is that
    text, computed by [fmt_context]. *)
Variable A : Type.
Variable leaf : A -> string.

(** dynamic_cast tests of 136-138. *)
Definition composite (s : sequence A) : bool :=
  match s with SLeaf _ => false | _ => true end.

(** formatSequence 84-98, format(ConcatenatedSequence) 128-132,
    format(RepeatedSequence) 134-146. *)
Fixpoint formatSequence (s : sequence A) : string :=
  match s with
  | SLeaf a => leaf a
  | SConcat l r => formatSequence l ++ " + " ++ formatSequence r
  | SRepeat s' n =>
      (if composite s' then "(" else "") ++ formatSequence s' ++
      (if composite s' then ")" else "") ++ " * " ++ show_Z n
  end.

(** formatExpectedPattern: 71-80 ([i < size() - 1]: not after the last). *)
Fixpoint formatExpectedPattern (p : list (sequence A)) : string :=
  match p with
  | [] => ""
  | [s] => formatSequence s
  | s :: p' => formatSequence s ++ " ... " ++ formatExpectedPattern p'
  end.

(** formatInvocationList: 111-126.  [texts]: the formats of the invocations.
    The loop over [i < max_size], a line break after all but the last. *)
Fixpoint list_loop (texts : list string) : string :=
  match texts with
  | [] => ""
  | [t] => "  " ++ t
  | t :: texts' => "  " ++ t ++ newline ++ list_loop texts'
  end.

(** DefaultEventFormatter.hpp:111-126. *)
Definition formatInvocationList (texts : list string) : string :=
  let max_size := if Nat.ltb 50 (length texts) then 50%nat else length texts in
  list_loop (firstn max_size texts) ++
  (if Nat.ltb max_size (length texts) then newline ++ "  ..." else "").


(** formatExpectedCount: 100-109. *)
Definition formatExpectedCount (t : vtype) (n : Z) : string :=
  (match t with VtExact => "exactly " | VtAtLeast => "at least " end) ++ show_Z n.

(** format(SequenceVerificationEvent): 37-61. *)
Definition fmt_sequence_event (p : list (sequence A)) (t : vtype) (n actual : Z)
  (texts : list string) : string :=
  "Verification error" ++ newline ++
  "Expected pattern: " ++ formatExpectedPattern p ++ newline ++
  "Expected matches: " ++ formatExpectedCount t n ++ newline ++
  "Actual matches  : " ++ show_Z actual ++ newline ++
  "Actual sequence : total of " ++ show_Z (Z.of_nat (length texts)) ++ " actual invocations" ++
  (if Nat.eqb (length texts) 0 then "." else ":" ++ newline) ++
  formatInvocationList texts.

(** format(NoMoreInvocationsVerificationEvent): 63-69. *)
Definition fmt_nomore_event (texts : list string) : string :=
  "Verification error" ++ newline ++
  "Expected no more invocations!! but the following unverified invocations were found:" ++ newline ++
  formatInvocationList texts.

(** format(UnexpectedMethodCallEvent): 18-28. *)
Definition fmt_unexpected_event (unmatched : bool) (inv : string) : string :=
  "Unexpected method invocation: " ++ inv ++ newline ++
  (if unmatched
   then "  Could not find any recorded behavior to support this method call."
   else "  An unmocked method was invoked. All used virtual methods must be stubbed!").

End Event.
Arguments formatSequence {A} leaf s.
Arguments formatExpectedPattern {A} leaf p.
Arguments fmt_sequence_event {A} leaf p t n actual texts.
Arguments composite {A} s.
