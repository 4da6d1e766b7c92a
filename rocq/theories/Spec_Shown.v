(** What users may expect to see in a report for an argument of each type, as a table: independent of how Formatter
    chooses and of overload resolution.  The types and values are those of Shown.v. *)
From Coq Require Import Bool Ascii String ZArith Lia List.
From Verif Require Import Base Shown.
Import ListNotations.
Open Scope nat_scope.

(** What the text is.  [Legible] kinds show the value; [OneOrZero] tells only whether a pointer is null;
    [Text false] is a text without quotes, [Letter false] a character without quotes; [Content] is what is left in a
    stream buffer; [Own] is what the operator<< of the user prints; [Nothing]: the test does not compile. *)
Inductive look := Word | Number | Real | OneOrZero | Letter (quoted : bool) | Text (quoted : bool) | Address | NullWord | Content | Own
  | Mark | Nothing.

(** Characters of other kinds than char. *)
Definition wide (a : arith) : bool := match a with WChar | Char8 | Char16 | Char32 => true | _ => false end.
Definition narrow (a : arith) : bool := match a with Char | SChar | UChar => true | _ => false end.
Definition real (a : arith) : bool := match a with Float | Double | LDouble => true | _ => false end.

(** Since C++20 wide characters cannot be printed, since C++17 nullptr can, since C++23 pointers to volatile objects. *)
Definition since20 (v : std) : bool := match v with Cpp20 | Cpp23 => true | _ => false end.
Definition since17 (v : std) : bool := match v with Cpp11 | Cpp14 => false | _ => true end.
Definition since23 (v : std) : bool := match v with Cpp23 => true | _ => false end.

(** Scalars, if printed by the standard library; None if it cannot print them. *)
Definition prints (v : std) (s : scalar) : option look :=
  match s with
  | SArith a | SEnum false _ a =>
      if wide a then (if since20 v then None else Some Number)
      else Some (if narrow a then Letter false else if real a then Real
                 else match a with Bool => OneOrZero | _ => Number end)
  | SEnum true _ _ => None
  | SNull => if since17 v then Some NullWord else None
  | SMember | SPtr _ _ OfFunction => Some OneOrZero
  | SPtr _ true _ => Some (if since23 v then Address else OneOrZero)
  | SPtr _ false (OfArith a) =>
      if narrow a then Some (Text false) else if wide a && since20 v then None else Some Address
  | SPtr false false (OfBuffer _) => Some Content
  | SPtr _ false _ => Some Address
  end.

(** What a report shows for a type of argument. *)
Definition looks (v : std) (t : ty) : look :=
  match t with
  | TScalar (SArith Bool) => Word
  | TScalar (SArith Char) => Letter true
  | TScalar (SPtr _ false (OfArith Char)) => Text true
  | TScalar (SArith _ as s) | TScalar (SPtr _ _ _ as s) => match prints v s with Some l => l | None => Nothing end
  | TScalar s | TClass None (Some s) => match prints v s with Some l => l | None => Mark end
  | TOwnEnum true | TClass (Some true) _ => Own
  | TOwnEnum false | TClass (Some false) _ | TClass None None => Mark
  end.

(** Types of the language in a version: char8_t is of C++20; underlying types of enumerations are not floating. *)
Definition scalar_ok (v : std) (s : scalar) : Prop :=
  match s with
  | SArith a | SPtr _ _ (OfArith a) => a = Char8 -> since20 v = true
  | SEnum _ fixed a => (a = Char8 -> since20 v = true) /\ real a = false /\
      (fixed = false -> In a [Int; UInt; Long; ULong; LLong; ULLong])
  | _ => True
  end.
Definition ty_ok (v : std) (t : ty) : Prop :=
  match t with TScalar s | TClass _ (Some s) => scalar_ok v s | _ => True end.

(** Values of a scalar type; numbers of type bool are 0 and 1. *)
Definition scalar_value (s : scalar) (x : value) : Prop :=
  match s, x with
  | SArith a, VNumber _ => real a = false
  | SArith a, VFloat _ => real a = true
  | SEnum _ _ _, VNumber _ => True
  | (SPtr _ _ _ | SMember), VPtr _ => True
  | SNull, VPtr None => True
  | _, _ => False
  end.
(** Values of a type: of one with an operator<< of the user the text that it prints. *)
Definition has_type (t : ty) (x : value) : Prop :=
  match t with
  | TScalar s => scalar_value s x
  | TClass None (Some s) => scalar_value s x
  | TOwnEnum _ | TClass _ _ => exists s, x = VText s
  end.

(** The text of a value, by what it is. *)
Section Look.
Variable show_number : Z -> string.
Variable show_address : option nat -> string.
Definition letter (z : Z) : ascii := ascii_of_N (Z.to_N (z mod 256)).
Definition quote (q : ascii) (on : bool) (s : string) : string := if on then String q (s ++ String q EmptyString)%string else s.
(** The object at an address is a text [t], up to a NUL. *)
Definition text_at (m : memory) (a : nat) (t : string) : Prop :=
  exists rest, m a = Some (CChars (t ++ String zero rest)%string) /\ forall n c, String.get n t = Some c -> c <> zero.
Inductive text_of (m : memory) : look -> value -> string -> Prop :=
| L_true z : z <> 0%Z -> text_of m Word (VNumber z) "true"
| L_false : text_of m Word (VNumber 0) "false"
| L_number z : text_of m Number (VNumber z) (show_number z)
| L_real t : text_of m Real (VFloat t) t
| L_one z : z <> 0%Z -> text_of m OneOrZero (VNumber z) "1"
| L_zero : text_of m OneOrZero (VNumber 0) "0"
| L_some a : text_of m OneOrZero (VPtr (Some a)) "1"
| L_none : text_of m OneOrZero (VPtr None) "0"
| L_letter q z : text_of m (Letter q) (VNumber z) (quote "'" q (String (letter z) EmptyString))
| L_text q a t : text_at m a t -> text_of m (Text q) (VPtr (Some a)) (quote """" q t)
| L_notext : text_of m (Text true) (VPtr None) "[nullptr]"
| L_address p : text_of m Address (VPtr p) (show_address p)
| L_null x : text_of m NullWord x "nullptr"
| L_content a s : m a = Some (CBuffer s) -> text_of m Content (VPtr (Some a)) s
| L_nocontent : text_of m Content (VPtr None) ""
| L_own s : text_of m Own (VText s) s
| L_mark x : text_of m Mark x "?".
End Look.

(** The types whose values reports read beyond the argument itself. *)
Definition reads (v : std) (t : ty) : bool := match looks v t with Text _ | Content => true | _ => false end.
